(** The Jacobi symbol of the server's last message. *)
From Coq Require Import Znumtheory Permutation.
From Verif Require Import Base M_BigNum M_Num M_DJ M_EC M_Group M_Cipher M_Paillier M_Protocol S_Paillier S_Protocol S_HideSum L_BigNum L_Num L_Mod L_NT L_DJ L_EC L_Group L_Cipher L_Paillier L_PaillierKey L_Protocol L_Jacobi L_HideSum L_HideReply.

(** ** The client's ciphertexts *)
Section Cipher.
Variable isp : Z -> bool.
Variable flag : bool.

Lemma generator_nonresidue p a g : prime p -> prime a -> p = 2 * a + 1 -> generator_of_prime_powers isp p = Ok g -> residue p g = false.
Proof.
  intros Pp Pa Ea E. pose proof (prime_ge_2 a Pa). unfold generator_of_prime_powers, generator_for_safe_prime in E. destruct (isp p); cbn [negb] in E; [|discriminate].
  assert (Ed : bn_div (p - 1) 2 = Ok a).
  { destruct (bn_div_exact (p - 1) 2 ltac:(lia)) as [E1 E2]; [exists a; lia|]. rewrite E1. f_equal. lia. }
  rewrite Ed in E. cbn [bind] in E. apply bind_ok in E. destruct E as (g0 & E0 & E). apply generator_loop_inv in E0; [|lia|lia]. destruct E0 as (_ & B & _).
  assert (R0 : residue p g0 = false).
  { destruct (residue p g0) eqn:R; [|reflexivity]. exfalso. apply B. right. unfold residue in R. apply Z.eqb_eq in R. replace ((p - 1) / 2) with a in R; [exact R|]. rewrite Ea. replace (2 * a + 1 - 1) with (a * 2) by ring. rewrite Z.div_mul by lia. reflexivity. }
  rewrite bn_mod_exp_ok in E by nia. cbn [bind] in E. destruct (_ =? 1); injection E as <-; [|exact R0].
  rewrite (residue_eqmod p a Ea ltac:(lia) (g0 + p) g0); [exact R0|]. exists 1. ring.
Qed.
Lemma crypto_generator p o s pc : prime_crypto_create isp flag p o s = Ok pc -> generator_of_prime_powers isp p = Ok (pc_g pc).
Proof.
  intros E. unfold prime_crypto_create in E. do 6 (apply bind_ok in E; destruct E as (? & _ & E)). apply bind_ok in E. destruct E as (g & Eg & E).
  do 2 (apply bind_ok in E; destruct E as (? & _ & E)). injection E as <-. exact Eg.
Qed.
Lemma private_generators p q s sk : private_create isp flag p q s = Ok sk -> generator_of_prime_powers isp p = Ok (pc_g (priv_p sk)) /\ generator_of_prime_powers isp q = Ok (pc_g (priv_q sk)).
Proof.
  intros E. unfold private_create in E. apply bind_ok in E. destruct E as (pc & Epc & E). apply bind_ok in E. destruct E as (qc & Eqc & E).
  do 6 (apply bind_ok in E; destruct E as (? & _ & E)). injection E as <-. cbn [priv_p priv_q]. split; eapply crypto_generator; eassumption.
Qed.
Lemma rand_between_is p raw : 1 < p -> generate_rand_between 1 p raw = Ok (exponent p raw).
Proof.
  intros H. unfold generate_rand_between, generate_rand_less_than. destruct (Z.ltb_spec 1 p); [|lia]. destruct (Z.leb_spec (p - 1) 0); [lia|]. cbn [bind]. unfold exponent. f_equal. lia.
Qed.
Lemma exponent_pos p raw : 1 < p -> 0 <= exponent p raw.
Proof. intros H. unfold exponent. pose proof (Z.mod_pos_bound raw (p - 1) ltac:(lia)). lia. Qed.

Lemma masked_residue p a o s g r c m : prime p -> prime a -> p = 2 * a + 1 -> Z.odd o = true -> 0 <= o -> 0 <= r -> 0 <= m -> residue p g = false -> ~ (p | g) ->
  eqmod (p ^ (Z.of_nat s + 1)) c ((1 + p * o) ^ m * (g ^ r) ^ ((p * o) ^ Z.of_nat s)) -> residue p c = Z.even r /\ ~ (p | c).
Proof.
  intros Pp Pa Ea Oo Ho Hr Hm Rg Ng E. pose proof (prime_ge_2 a Pa) as Ha. pose proof (prime_ge_2 p Pp) as H2.
  assert (Ec : eqmod p c (g ^ (r * (p * o) ^ Z.of_nat s))).
  { rewrite Z.pow_mul_r by (try (apply Z.pow_nonneg, Z.mul_nonneg_nonneg; [clear - H2; lia|exact Ho]); exact Hr). transitivity ((1 + p * o) ^ m * (g ^ r) ^ (p * o) ^ Z.of_nat s).
    - apply (eqmod_divide p (p ^ (Z.of_nat s + 1))); [|exact E]. exists (p ^ Z.of_nat s). rewrite Z.pow_add_r, Z.pow_1_r by lia. ring.
    - assert (E1 : eqmod p (1 + p * o) 1) by (exists o; ring). rewrite E1, Z.pow_1_l, Z.mul_1_l by exact Hm. reflexivity. }
  assert (HN : 0 <= r * (p * o) ^ Z.of_nat s) by (apply Z.mul_nonneg_nonneg; [exact Hr|apply Z.pow_nonneg, Z.mul_nonneg_nonneg; [clear - H2; lia|exact Ho]]).
  assert (OP : Z.odd p = true) by (rewrite Ea, Z.add_comm, Z.odd_add_mul_2; reflexivity).
  split.
  - rewrite (residue_eqmod p a Ea ltac:(lia) _ _ Ec), (residue_pow p a Pp Ea ltac:(lia) g _ HN Ng), Rg. cbn [orb].
    rewrite Z.even_mul. assert (O : Z.odd ((p * o) ^ Z.of_nat s) = true) by (apply odd_pow; [lia|]; rewrite Z.odd_mul, OP, Oo; reflexivity). rewrite <- (Z.negb_odd ((p * o) ^ Z.of_nat s)), O. apply Bool.orb_false_r.
  - intros D. apply (ndiv_pow p a Pp Ea ltac:(lia) g _ HN Ng). apply eqmod_0. rewrite <- Ec. apply eqmod_0, D.
Qed.

Lemma client_ciphertext p q s sk m raw_p raw_q c : safe_prime p -> safe_prime q -> (1 <= s)%nat -> private_create isp flag p q s = Ok sk -> priv_encrypt flag sk m raw_p raw_q = Ok c ->
  residue p c = Z.even (exponent p raw_p) /\ residue q c = Z.even (exponent q raw_q) /\ ~ (p | c) /\ ~ (q | c).
Proof.
  intros Hp Hq Hs Esk E. pose proof (private_inv isp flag p q s sk Hp Hq Hs Esk) as K. destruct (private_generators p q s sk Esk) as [Gp Gq].
  pose proof (safe_prime_facts p Hp) as (_ & Hp5 & Op). pose proof (safe_prime_facts q Hq) as (_ & Hq5 & Oq). destruct Hp as [Pp (a & Pa & Ea)]. destruct Hq as [Pq (b & Pb & Eb)].
  unfold priv_encrypt in E. destruct (negb (is_non_negative m)) eqn:Em; [discriminate|]. destruct (_ <=? m); [discriminate|]. unfold pc_encrypt in E.
  rewrite (v_p _ _ _ _ (k_p _ _ _ _ K)), (v_p _ _ _ _ (k_q _ _ _ _ K)), !rand_between_is in E by lia. cbn [bind] in E.
  pose proof (exponent_pos p raw_p ltac:(lia)) as Brp. pose proof (exponent_pos q raw_q ltac:(lia)) as Brq. set (ep := exponent p raw_p) in *. set (eq := exponent q raw_q) in *.
  destruct (pc_encrypt_with_rand_ok flag p q s _ (k_p _ _ _ _ K) m ep Brp) as (cp & Ecp & Bcp & Hcp). rewrite Ecp in E. cbn [bind] in E.
  destruct (pc_encrypt_with_rand_ok flag q p s _ (k_q _ _ _ _ K) m eq Brq) as (cq & Ecq & Bcq & Hcq). rewrite Ecq in E. cbn [bind] in E.
  assert (HP : 0 < p ^ (Z.of_nat s + 1)) by (apply Z.pow_pos_nonneg; lia). assert (HQ : 0 < q ^ (Z.of_nat s + 1)) by (apply Z.pow_pos_nonneg; lia).
  assert (HP0 : 0 < p ^ Z.of_nat s) by (apply Z.pow_pos_nonneg; lia). assert (HQ0 : 0 < q ^ Z.of_nat s) by (apply Z.pow_pos_nonneg; lia).
  assert (G : Z.gcd (p ^ (Z.of_nat s + 1)) (q ^ (Z.of_nat s + 1)) = 1) by (apply (priv_gcd_pow p q s sk K); lia).
  destruct (crt_correct _ _ _ cp cq HP HQ G (k_enc _ _ _ _ K)) as (c' & Ec' & _ & R1 & R2). assert (c' = c) as -> by congruence. apply eq_eqmod in R1, R2. rewrite <- R1 in Hcp. rewrite <- R2 in Hcq.
  destruct (masked_residue p a q s (pc_g (priv_p sk)) ep c (m mod p ^ Z.of_nat s) Pp Pa Ea Oq ltac:(lia) Brp ltac:(apply Z.mod_pos_bound; exact HP0) (generator_nonresidue p a _ Pp Pa Ea Gp) (v_g _ _ _ _ (k_p _ _ _ _ K)) Hcp) as [A1 A2].
  destruct (masked_residue q b p s (pc_g (priv_q sk)) eq c (m mod q ^ Z.of_nat s) Pq Pb Eb Op ltac:(lia) Brq ltac:(apply Z.mod_pos_bound; exact HQ0) (generator_nonresidue q b _ Pq Pb Eb Gq) (v_g _ _ _ _ (k_q _ _ _ _ K)) Hcq) as [B1 B2].
  tauto.
Qed.
End Cipher.

(** ** Products *)
Section Product.
Variables p q : Z.
Hypothesis Hp : safe_prime p.
Hypothesis Hq : safe_prime q.

(** A ciphertext whose Jacobi symbol is (-1)^l. *)
Definition marked (l c : Z) : Prop := jacobi_one p q c = Z.even l /\ ~ (p | c) /\ ~ (q | c).
Lemma marked_one : marked 0 1.
Proof.
  pose proof (safe_prime_facts p Hp) as (_ & Hp5 & _). pose proof (safe_prime_facts q Hq) as (_ & Hq5 & _). destruct Hp as [Pp (a & Pa & Ea)]. destruct Hq as [Pq (b & Pb & Eb)].
  split; [unfold jacobi_one; rewrite (residue_one p a), (residue_one q b) by (assumption || lia); reflexivity|]. split; intros D; apply Z.divide_1_r_nonneg in D; lia.
Qed.
Lemma marked_mul l c l' c' : marked l c -> marked l' c' -> marked (l + l') (c * c').
Proof.
  pose proof (safe_prime_facts p Hp) as (_ & Hp5 & _). pose proof (safe_prime_facts q Hq) as (_ & Hq5 & _). destruct Hp as [Pp (a & Pa & Ea)]. destruct Hq as [Pq (b & Pb & Eb)].
  intros (J & N1 & N2) (J' & N1' & N2'). split; [|split; apply ndiv_mul; assumption]. unfold jacobi_one in *. rewrite Z.even_add, <- J, <- J'.
  rewrite (residue_mul p a Pp Ea ltac:(lia) c c' N1 N1'), (residue_mul q b Pq Eb ltac:(lia) c c' N2 N2'). destruct (residue p c), (residue p c'), (residue q c), (residue q c'); reflexivity.
Qed.
Lemma marked_pow c k : marked 0 c -> 0 <= k -> marked 0 (c ^ k).
Proof.
  intros H Hk. pattern k. apply natlike_ind; [exact marked_one| |exact Hk]. intros y Hy IH. rewrite Z.pow_succ_r by exact Hy. exact (marked_mul 0 _ 0 _ H IH).
Qed.
Lemma marked_eqmod l c c' : eqmod (p * q) c c' -> marked l c -> marked l c'.
Proof.
  pose proof (safe_prime_facts p Hp) as (_ & Hp5 & _). pose proof (safe_prime_facts q Hq) as (_ & Hq5 & _). destruct Hp as [Pp (a & Pa & Ea)]. destruct Hq as [Pq (b & Pb & Eb)].
  intros E (J & N1 & N2). assert (E1 : eqmod p c c') by (apply (eqmod_divide p (p * q)); [apply Z.divide_factor_l|exact E]). assert (E2 : eqmod q c c') by (apply (eqmod_divide q (p * q)); [apply Z.divide_factor_r|exact E]).
  split; [|split; intros D; [apply N1|apply N2]; apply eqmod_0; [rewrite E1|rewrite E2]; apply eqmod_0, D].
  unfold jacobi_one in *. rewrite <- (residue_eqmod p a Ea ltac:(lia) _ _ E1), <- (residue_eqmod q b Eb ltac:(lia) _ _ E2). exact J.
Qed.
Lemma marked_minus_square x : 5 < p -> 5 < q -> Z.gcd x (p * q) = 1 -> marked 0 (- (x * x)).
Proof.
  intros H5 H5' G. destruct Hp as [Pp (a & Pa & Ea)]. destruct Hq as [Pq (b & Pb & Eb)].
  pose proof (coprime_ndiv p q p x Pp (Z.divide_factor_l _ _) G) as Np. pose proof (coprime_ndiv p q q x Pq (Z.divide_factor_r _ _) G) as Nq.
  assert (N1 : forall r, 5 < r -> ~ (r | -1)) by (intros r Hr D; change (-1) with (- (1)) in D; apply Z.divide_opp_r, Z.divide_1_r_nonneg in D; lia).
  replace (- (x * x)) with (-1 * (x * x)) by ring. split; [|split; apply ndiv_mul; try assumption; try (apply N1; assumption); apply ndiv_mul; assumption].
  unfold jacobi_one. rewrite (residue_mul p a Pp Ea ltac:(lia) (-1) (x * x)), (residue_mul q b Pq Eb ltac:(lia) (-1) (x * x)) by (try apply N1; try assumption; apply ndiv_mul; assumption).
  rewrite (residue_minus_one p a Pp Ea ltac:(lia)), (residue_minus_one q b Pq Eb ltac:(lia)) by (apply odd_half; (assumption || lia)).
  rewrite (residue_square p a Pp Ea ltac:(lia) x Np), (residue_square q b Pq Eb ltac:(lia) x Nq). reflexivity.
Qed.
Lemma marked_product ls es : Forall2 (fun l e => marked l (of_bytes (ad e))) ls es -> marked (S_Protocol.zsum ls) (product es).
Proof. induction 1 as [|l e ls es H _ IH]; cbn [S_Protocol.zsum product fold_right]; [exact marked_one|]. exact (marked_mul _ _ _ _ H IH). Qed.
End Product.

(** ** The protocol *)
Section Leak.
Variable C : ec.
Hypothesis L : ec_laws C.
Variable X : externals.
Variable sqrt_p : Z -> Z.
Variable fuel : nat.
Variable isp : Z -> bool.
Variable flag : bool.
Variables p q : Z.
Hypothesis Hp : safe_prime p.
Hypothesis Hq : safe_prime q.
Hypothesis Hp5 : 5 < p.
Hypothesis Hq5 : 5 < q.
Variable srt : list elem -> list elem.
Hypothesis Hsrt : sorts srt.

(** What is chosen, for any labelling of the client's rows. *)
Lemma intersection_labels (R : Z -> elem -> Prop) k xs ls inputs cs re : k mod ec_order C <> 0 -> map fst (combine xs ls) = xs ->
  (forall a b, In a (xs ++ inputs) -> In b (xs ++ inputs) -> hashes C X sqrt_p fuel a = hashes C X sqrt_p fuel b -> a = b) ->
  Forall2 (fun xv e => dbl C X sqrt_p fuel k (fst xv) (el e) /\ R (snd xv) e) (combine xs ls) cs -> Forall2 (fun x e => dbl C X sqrt_p fuel k x (el e)) inputs re ->
  exists chosen, multi_intersection (combine xs ls) inputs chosen /\ Forall2 (fun xv e => R (snd xv) e) chosen (inter_of srt cs re).
Proof.
  intros Hk Efst Hinj Fcs Fre. destruct (Hsrt cs) as [Pcs Scs]. destruct (Hsrt (srt re)) as [Pre2 Sre]. destruct (Hsrt re) as [Pre1 _]. pose proof (perm_trans Pre1 Pre2) as Pre. clear Pre1 Pre2.
  unfold inter_of. set (a := srt cs) in *. set (b := srt (srt re)) in *. set (inter := set_intersection (length a + length b) a b) in *.
  destruct (set_intersection_spec (length a + length b) a b ltac:(lia) Scs Sre) as ((rest & Prest) & Hcount). fold inter in Prest, Hcount.
  destruct (Forall2_perm_r _ _ _ _ Fcs (perm_trans Pcs Prest)) as (pairs & Pp & Fp). apply Forall2_app_inv_r in Fp. destruct Fp as (chosen & others & Fch & Foth & ->).
  exists chosen. split; [split|].
  - exists others. exact Pp.
  - intros x. assert (Hmem : incl (map fst chosen) xs).
    { rewrite <- Efst. intros y Hy. apply in_map_iff in Hy. destruct Hy as (z & <- & Hz). apply in_map. eapply Permutation_in; [symmetry; exact Pp|]. apply in_or_app. left. exact Hz. }
    rewrite Efst. destruct (in_dec bytes_dec x (xs ++ inputs)) as [Hin|Hout].
    + assert (Hx : exists d, dbl C X sqrt_p fuel k x d).
      { apply in_app_or in Hin. destruct Hin as [Hin|Hin].
        - rewrite <- Efst in Hin. apply in_map_iff in Hin. destruct Hin as ([x' v'] & <- & Hin). clear -Fcs Hin. induction Fcs as [|? e ? ? [H _] _ IH]; [contradiction|]. destruct Hin as [->|Hin]; [eauto|exact (IH Hin)].
        - clear -Fre Hin. induction Fre as [|? e ? ? H _ IH]; [contradiction|]. destruct Hin as [->|Hin]; [eauto|exact (IH Hin)]. }
      destruct Hx as (d & Hd).
      assert (F1 : Forall2 (dbl C X sqrt_p fuel k) (map fst chosen) (map el inter)) by (clear -Fch; induction Fch as [|? ? ? ? [H _] _ IH]; cbn [map]; constructor; assumption).
      assert (F2 : Forall2 (dbl C X sqrt_p fuel k) xs (map el cs)) by (rewrite <- Efst; clear -Fcs; induction Fcs as [|? ? ? ? [H _] _ IH]; cbn [map]; constructor; assumption).
      assert (F3 : Forall2 (dbl C X sqrt_p fuel k) inputs (map el re)) by (clear -Fre; induction Fre as [|? ? ? ? H _ IH]; cbn [map]; constructor; assumption).
      rewrite (dbl_count C L X sqrt_p fuel k (xs ++ inputs) x d Hk Hinj Hin Hd _ _ ltac:(intros y Hy; apply in_or_app; left; exact (Hmem y Hy)) F1).
      rewrite (dbl_count C L X sqrt_p fuel k (xs ++ inputs) x d Hk Hinj Hin Hd _ _ ltac:(intros y Hy; apply in_or_app; left; exact Hy) F2).
      rewrite (dbl_count C L X sqrt_p fuel k (xs ++ inputs) x d Hk Hinj Hin Hd _ _ ltac:(intros y Hy; apply in_or_app; right; exact Hy) F3).
      rewrite Hcount. f_equal; apply count_perm, Permutation_map; symmetry; assumption.
    + rewrite !count_0; [reflexivity|..]; intros H; apply Hout; apply in_or_app; [right|left|left; apply Hmem]; exact H.
  - clear -Fch. induction Fch as [|? ? ? ? [_ H] _ IH]; constructor; assumption.
Qed.

(** The labels: the sum of the two exponents the client used for a row. *)
Definition labels (rp rq : nat -> Z) (i n : nat) : list Z := map (fun j => exponent p (rp j) + exponent q (rq j)) (seq i n).
Lemma client_rows_marked c sk rp rq : private_create isp flag p q 2 = Ok sk -> forall xs vs i rows, client_rows C X sqrt_p fuel flag c sk rp rq i xs vs = Ok rows ->
  Forall2 (fun xv e => enc C X sqrt_p fuel c (fst xv) = Ok (el e) /\ marked p q (snd xv) (of_bytes (ad e))) (combine xs (labels rp rq i (length xs))) rows /\ map fst (combine xs (labels rp rq i (length xs))) = xs.
Proof.
  intros Esk. pose proof (private_inv isp flag p q 2 sk Hp Hq ltac:(lia) Esk) as K. induction xs as [|x xs IH]; cbn [client_rows]; intros vs i rows E; [injection E as <-; split; [constructor|reflexivity]|].
  apply bind_ok in E. destruct E as (b & Eb & E). destruct vs as [|v vs]; [discriminate|]. apply bind_ok in E. destruct E as (ct & Ect & E).
  apply bind_ok in E. destruct E as (cb & Ecb & E). apply bind_ok in E. destruct E as (rest & Er & E). injection E as <-. destruct (IH _ _ _ Er) as [H1 H2].
  unfold labels. cbn [length seq map combine]. fold (labels rp rq (S i) (length xs)). cbn [fst]. rewrite H2. split; [|reflexivity].
  constructor; [|exact H1]. cbn [fst snd el ad]. split; [exact Eb|].
  destruct (client_ciphertext isp flag p q 2 sk v (rp i) (rq i) ct Hp Hq ltac:(lia) Esk Ect) as (R1 & R2 & N1 & N2).
  assert (Nc : 0 <= ct) by (destruct (Z_lt_dec ct 0) as [Ns|Ns]; [unfold to_bytes in Ecb; destruct (Z.ltb_spec ct 0); try lia; discriminate|lia]).
  destruct (to_bytes_of ct Nc) as (b' & Eb' & Vb). assert (b' = cb) as -> by congruence. rewrite Vb. split; [|tauto]. unfold jacobi_one. rewrite R1, R2, Z.even_add. reflexivity.
Qed.

Lemma reply_symbol xs vs key_raw rp rq inputs r1 r2 size sb : 0 <= sr_zero r2 < p * q ->
  NoDup xs -> (forall a b, In a (xs ++ inputs) -> In b (xs ++ inputs) -> hashes C X sqrt_p fuel a = hashes C X sqrt_p fuel b -> a = b) ->
  second_reply C X sqrt_p fuel isp flag srt xs vs p q key_raw rp rq inputs r1 r2 = Ok (size, sb) ->
  jacobi_one p q (of_bytes sb) = Z.even (S_Protocol.zsum (map snd (common (combine xs (labels rp rq 0 (length xs))) inputs))).
Proof.
  intros Hz ND Hinj E. destruct (second_reply_inv C X sqrt_p fuel isp flag p q Hp Hq srt _ _ _ _ _ _ _ _ _ E) as (kc & ks & es & sk & rows & re & pk & cs & Ekc & Eks & Ees & Esk & Erows & Ere & Epk & Ecs & F).
  assert (EW : with_zero r2 (sr_zero r2) = r2) by (destruct r2; reflexivity). specialize (F _ Hz). rewrite EW, E in F. clear EW E.
  destruct (cipher_new_good C L X _ _ Ekc) as [Gc Hc]. destruct (cipher_new_good C L X _ _ Eks) as [Gs Hs].
  destruct (client_rows_marked kc sk rp rq Esk _ _ _ _ Erows) as [Frows Efst]. apply mapM_Forall2 in Ees, Ere, Ecs. set (k := ci_key kc * ci_key ks).
  pose proof (key_product C L kc ks Gc Gs) as Hk. fold k in Hk.
  assert (Fcs : Forall2 (fun xv e => dbl C X sqrt_p fuel k (fst xv) (el e) /\ marked p q (snd xv) (of_bytes (ad e))) (combine xs (labels rp rq 0 (length xs))) cs).
  { eapply Forall2_trans; [|exact Frows|exact Ecs]. intros [x v] e e' [H1 H2] H3. cbn [fst snd] in *. apply bind_ok in H3. destruct H3 as (b & Eb & H3). injection H3 as <-. cbn [el ad].
    split; [exact (dbl_enc C L X sqrt_p fuel kc ks x (el e) b Gc Gs Hc H1 Eb)|exact H2]. }
  assert (Fre : Forall2 (fun x e => dbl C X sqrt_p fuel k x (el e)) inputs re).
  { eapply Forall2_trans; [|exact Ees|exact Ere]. cbn beta. intros x e e' H1 H2. apply bind_ok in H1, H2. destruct H1 as (b & Eb & H1), H2 as (b' & Eb' & H2). injection H1 as <-. injection H2 as <-. cbn [el] in *.
    unfold k. rewrite Z.mul_comm. exact (dbl_enc C L X sqrt_p fuel ks kc x b b' Gs Gc Hs Eb Eb'). }
  destruct (intersection_labels (fun l e => marked p q l (of_bytes (ad e))) k xs _ inputs cs re Hk Efst Hinj Fcs Fre) as (chosen & MI & Fch).
  pose proof (multi_intersection_nodup _ _ _ ltac:(rewrite Efst; exact ND) MI) as PC.
  assert (Fl : Forall2 (fun l e => marked p q l (of_bytes (ad e))) (map snd chosen) (inter_of srt cs re)) by (clear -Fch; induction Fch; cbn [map]; constructor; assumption).
  pose proof (marked_product p q Hp Hq _ _ Fl) as MA. rewrite (zsum_perm _ _ (Permutation_map snd PC)) in MA. set (ls := S_Protocol.zsum _) in *.
  pose proof (safe_prime_facts p Hp) as (_ & _ & Op). pose proof (safe_prime_facts q Hq) as (_ & _ & Oq). assert (Hn : 1 < p * q) by nia. assert (On : Z.odd (p * q) = true) by (rewrite Z.odd_mul, Op, Oq; reflexivity).
  destruct (public_base flag (p * q) 2 _ pk Hn On Epk) as (x & _ & Gx & Hb).
  assert (M0 : 0 < (p * q) ^ 3) by (apply Z.pow_pos_nonneg; lia).
  assert (Dn : (p * q | (p * q) ^ 3)) by (exists ((p * q) ^ 2); ring).
  assert (MB : marked p q 0 (pub_base pk)).
  { apply (marked_eqmod p q Hp Hq 0 ((- (x * x)) ^ ((p * q) ^ Z.of_nat 2))).
    - symmetry. transitivity ((p * q - (x * x) mod (p * q)) ^ (p * q) ^ Z.of_nat 2); [apply (eqmod_divide _ _ _ _ Dn Hb)|]. rewrite minus_square. reflexivity.
    - apply (marked_pow p q Hp Hq); [apply (marked_minus_square p q Hp Hq); assumption|apply Z.pow_nonneg; lia]. }
  assert (Esb : sb = bytes_of ((pub_base pk ^ sr_zero r2 * product (inter_of srt cs re)) mod (p * q) ^ 3)) by congruence.
  destruct (bytes_of_ok ((pub_base pk ^ sr_zero r2 * product (inter_of srt cs re)) mod (p * q) ^ 3)) as [_ V]; [apply Z.mod_pos_bound; exact M0|]. rewrite Esb, V.
  pose proof (marked_mul p q Hp Hq 0 _ ls _ (marked_pow p q Hp Hq _ (sr_zero r2) MB ltac:(lia)) MA) as MM. rewrite Z.add_0_l in MM.
  apply (marked_eqmod p q Hp Hq ls _ ((pub_base pk ^ sr_zero r2 * product (inter_of srt cs re)) mod (p * q) ^ 3)) in MM; [exact (proj1 MM)|].
  apply (eqmod_divide _ _ _ _ Dn). symmetry. apply eqmod_mod.
Qed.
End Leak.
