(** Lemmas about two accepted request proofs with one first message. *)
From Coq Require Import Znumtheory.
From Verif Require Import Base M_BigNum L_BigNum M_Num L_Mod L_Num L_NT M_DJ L_DJ M_Paillier L_Paillier L_PaillierKey M_EC L_EC L_Cipher M_Proto M_CS S_CS L_CS
  M_Simul M_Pedersen M_Wire M_VRF M_BB L_BBct L_BBhom L_BBped L_BBreq L_BBrsp S_Exp S_Pedersen S_BB S_BBquery S_BBrequest L_Exp L_Protocol L_Pedersen L_VRF L_BB L_Wire P_VRF P_BBhash
  L_BBsound L_Cheat L_ZPow L_BBrequest.

Lemma map2_cut {A B R} (f : A -> B -> R) : forall m a c, map2 f (firstn m a) (firstn m c) = firstn m (map2 f a c).
Proof. induction m as [|m IH]; intros [|x a] [|z c]; cbn [firstn map2]; try reflexivity. rewrite IH. reflexivity. Qed.
Lemma map2_cut_l {A B R} (f : A -> B -> R) : forall l m a, length l = m -> map2 f (firstn m a) l = map2 f a l.
Proof. induction l as [|z l IH]; intros m a <-; [destruct a; reflexivity|]. cbn [length]. destruct a as [|x a]; [reflexivity|]. cbn [firstn map2]. rewrite (IH _ a eq_refl). reflexivity. Qed.

Section Two.
Variable C : ec.
Variable b : bb C.
Variables (n : Z) (s : nat) (xs : list Z).
Notation cs := (bb_cs C b).
Hypothesis W : cs_valid n s cs.
Hypothesis Hg : Z.gcd (cs_g cs) n = 1.
Hypothesis Hk : key_match n s (cs_g cs) xs (cs_ys cs).
Notation len := (cs_len cs).
Notation E := (enc n s cs xs).
Notation M := (n ^ (Z.of_nat s + 1)).
Notation P := (n ^ Z.of_nat s).
Hypothesis Hlen : (0 < len)%nat.
Variables (rk ry : nat -> Z) (k y : Z).
Hypothesis Hrk : forall j, 0 <= rk j.
Hypothesis Hry : forall j, 0 <= ry j.
Hypothesis Hk0 : 0 <= k.
Hypothesis Hy0 : 0 <= y.
Notation ped := (bb_ped C b).
Notation pp := (pd_par ped).
Notation N := (pp_n pp).
Notation G := (length (pp_gs pp)).
Notation q := (ec_order C).
Hypothesis PO : ped_ok ped.
Hypothesis UN : units pp.
Hypothesis Hq : 0 < q.
Variable T : Z.
Hypothesis HT : 0 < T.
Hypothesis FN : full N T.
Hypothesis FM : full M T.
Notation first := (first_of C b n s xs rk ry k y).
Notation zc := (zcom T (pp_gs pp) (pp_h pp)).
Notation zq := (zp T).

Variable m : nat.
Hypothesis HmG : (m <= G)%nat.
Variables (cm cr : Z) (cas : list Z) (cb cal cga : Z) (cts : list cs_ciphertext) (c1 c2 : Z) (v1 v2 : req_values) (f : req_first).
Hypothesis Lc : length cas = m.
Hypothesis S1 : shaped C b m v1.
Hypothesis S2 : shaped C b m v2.
Hypothesis H1 : 0 <= c1.
Hypothesis H2 : 0 <= c2.
Hypothesis Hd : c1 <> c2.
Hypothesis Q1 : quotient C b n s cm cr cas cb cal cga cts c1 (first cas v1) f.
Hypothesis Q2 : quotient C b n s cm cr cas cb cal cga cts c2 (first cas v2) f.
Notation D := (c1 - c2).
Notation dl g := (map2 Z.sub (g v1) (g v2)).
Notation dz g := (g v1 - g v2).
Notation sum := (fold_right Z.add 0).

Let Ug : Forall (fun g => Z.gcd g N = 1) (pp_gs pp) := proj1 UN.
Let Uh : Z.gcd (pp_h pp) N = 1 := proj2 UN.
Lemma com_z w o : nonneg w -> 0 <= o -> eqmod N (com C b w o) (zc w o).
Proof. intros Hw Ho. rewrite (zcom_pos N T HT FN _ _ Ug Uh) by assumption. reflexivity. Qed.
(** A commitment opened by two answers. *)
Lemma two_coms d Y w1 o1 w2 o2 : length w1 = length w2 -> nonneg w1 -> nonneg w2 -> 0 <= o1 -> 0 <= o2 ->
  over N d Y c1 (com C b w1 o1) -> over N d Y c2 (com C b w2 o2) -> Z.gcd Y N = 1 /\ eqmod N (zq Y D) (zc (map2 Z.sub w1 w2) (o1 - o2)).
Proof.
  intros Hl N1w N2w O1 O2 V1 V2. pose proof (over_two N d Y c1 c2 _ _ H1 H2 Hd V1 V2) as GY. split; [exact GY|].
  apply (two_commitments N T HT FN _ _ Ug Uh d Y w1 o1 w2 o2 c1 c2 GY H1 H2 Hl); [rewrite <- com_z by assumption; apply V1|rewrite <- com_z by assumption; apply V2].
Qed.
Lemma slot_sub i a c : map2 Z.sub (slot G i a) (slot G i c) = slot G i (a - c).
Proof. unfold slot. generalize (seq 0 G) as js. induction js as [|j js IH]; cbn [map map2]; [reflexivity|]. rewrite IH. f_equal. destruct (j =? i)%nat; lia. Qed.
Lemma map2_sub_nth a c i : length a = length c -> nth i (map2 Z.sub a c) 0 = nth i a 0 - nth i c 0.
Proof. intros H. apply map2_nth; [exact H|reflexivity]. Qed.

(** The commitments to single values. *)
Lemma as_open i : (i < m)%nat -> Z.gcd (nth i cas 0) N = 1 /\ eqmod N (zq (nth i cas 0) D) (zc (slot G i (nth i (dl v_as) 0)) (nth i (dl v_as_open) 0)).
Proof.
  intros Hi. assert (Hi' : (i < length cas)%nat) by lia. pose proof (u_a _ _ _ _ _ _ _ _ _ _ _ _ _ _ Q1 i Hi') as V1. pose proof (u_a _ _ _ _ _ _ _ _ _ _ _ _ _ _ Q2 i Hi') as V2.
  cbn [first_of f_as] in V1, V2. rewrite tab_nth in V1, V2. rewrite (z_m _ _ _ _ S1) in V1. rewrite (z_m _ _ _ _ S2) in V2. destruct (Nat.ltb_spec i m) as [_|]; [|lia].
  destruct (two_coms _ _ _ _ _ _ ltac:(rewrite !slot_len; reflexivity) (slot_nonneg _ _ _ (nonneg_nth _ i (y_a _ _ _ _ S1))) (slot_nonneg _ _ _ (nonneg_nth _ i (y_a _ _ _ _ S2)))
    (nonneg_nth _ i (y_ao _ _ _ _ S1)) (nonneg_nth _ i (y_ao _ _ _ _ S2)) V1 V2) as [GY EY]. split; [exact GY|]. rewrite EY, slot_sub.
  rewrite !map2_sub_nth by (destruct S1, S2; congruence). reflexivity.
Qed.
Lemma cas_units : Forall (fun c => Z.gcd c N = 1) cas.
Proof. rewrite (tab_of cas), Lc. apply tab_Forall. intros i Hi. apply (as_open i Hi). Qed.

(** A list committed to once and as a product. *)
Lemma product_open Y d1 d2 al1 al2 es1 es2 o1 o2 p1 p2 : length al1 = m -> length al2 = m -> length es1 = m -> length es2 = m -> nonneg al1 -> nonneg al2 -> nonneg es1 -> nonneg es2 ->
  0 <= o1 -> 0 <= o2 -> 0 <= p1 -> 0 <= p2 ->
  over N d1 Y c1 (com C b al1 o1) -> over N d1 Y c2 (com C b al2 o2) ->
  over N d2 Y c1 ((pp_h pp ^ p1 * multi_exp cas es1) mod N) -> over N d2 Y c2 ((pp_h pp ^ p2 * multi_exp cas es2) mod N) ->
  eqmod N (zc (map2 Z.sub (map (Z.mul D) (map2 Z.sub al1 al2)) (map2 Z.mul (dl v_as) (map2 Z.sub es1 es2)))
    (D * (o1 - o2) - (sum (map2 Z.mul (dl v_as_open) (map2 Z.sub es1 es2)) + D * (p1 - p2)))) 1.
Proof.
  intros A1 A2 B1 B2 NA1 NA2 NB1 NB2 O1 O2 P1 P2 V1 V2 W1 W2. pose proof (N1 C b PO) as HN. destruct (two_coms _ _ _ _ _ _ (eq_trans A1 (eq_sym A2)) NA1 NA2 O1 O2 V1 V2) as [GY EY].
  assert (LA : length (dl v_as) = m) by (rewrite map2_len; destruct S1, S2; congruence).
  assert (LO : length (dl v_as_open) = m) by (rewrite map2_len; destruct S1, S2; congruence).
  assert (LE : length (map2 Z.sub es1 es2) = m) by (rewrite map2_len; congruence). assert (LL : length (map2 Z.sub al1 al2) = m) by (rewrite map2_len; congruence).
  apply (product_pair N T HT FN _ _ Ug Uh Y D _ _ _ cas _ _ _ m GY LA LO LE LL Lc HmG cas_units (fun i Hi => proj2 (as_open i Hi)) EY).
  pose proof (two_quotients N T HT FN d2 Y _ _ c1 c2 GY H1 H2 (proj1 W1) (proj1 W2)) as QQ. rewrite !(eqmod_mod N) in QQ.
  assert (UX : Z.gcd (zq (pp_h pp) p2 * zm T cas es2) N = 1) by (apply gcd_mul_l; [apply (zp_unit N T HT); exact Uh|apply (zm_unit N T HT); exact cas_units]).
  assert (X1 : eqmod N (pp_h pp ^ p1 * multi_exp cas es1) (zq (pp_h pp) p1 * zm T cas es1)) by (rewrite (zp_pos N T HT FN), (zm_pos N T HT FN cas cas_units) by assumption; reflexivity).
  assert (X2 : eqmod N (pp_h pp ^ p2 * multi_exp cas es2) (zq (pp_h pp) p2 * zm T cas es2)) by (rewrite (zp_pos N T HT FN), (zm_pos N T HT FN cas cas_units) by assumption; reflexivity).
  rewrite X1, X2 in QQ. apply (eqmod_cancel N _ _ _ UX). rewrite Z.mul_comm, QQ.
  assert (Z1 : eqmod N (zq (pp_h pp) p1) (zq (pp_h pp) p2 * zq (pp_h pp) (p1 - p2))) by (rewrite <- (zp_add N T HT FN) by exact Uh; replace (p2 + (p1 - p2)) with p1 by ring; reflexivity).
  assert (Z2 : eqmod N (zm T cas es1) (zm T cas es2 * zm T cas (map2 Z.sub es1 es2))).
  { rewrite <- (zm_add N T HT FN cas cas_units) by congruence. assert (X : map2 Z.add es2 (map2 Z.sub es1 es2) = es1); [|rewrite X; reflexivity].
    assert (LL' : length es1 = length es2) by congruence. clear - LL'. revert es2 LL'. induction es1 as [|x es1 IH]; intros [|z es2] LL'; cbn [map2 length] in *; try reflexivity; try lia. rewrite IH by lia. f_equal. ring. }
  rewrite Z1, Z2. exists 0. ring.
Qed.
Lemma twice_of_one w o : eqmod N (zc w o) 1 -> opens_twice (pp_gs pp) (pp_h pp) N w o.
Proof.
  intros E1. pose proof (N1 C b PO) as HN. apply (zcom_split N T HT FN _ _ Ug Uh) in E1. unfold opens_twice.
  rewrite !(zcom_pos N T HT FN _ _ Ug Uh) in E1; try lia; try (apply Forall_forall; intros z Hz; apply in_map_iff in Hz; destruct Hz as (a & <- & _); lia).
  apply (eqmod_small N); [apply Z.mod_pos_bound; lia|apply Z.mod_pos_bound; lia|exact E1].
Qed.

Variables (ms : list Z) (om : Z) (rs : list Z) (or_ : Z).
Hypothesis Lm : length ms = m.
Hypothesis Lr : length rs = m.
Hypothesis Nm : nonneg ms.
Hypothesis Nr : nonneg rs.
Hypothesis Nom : 0 <= om.
Hypothesis Nor : 0 <= or_.
Hypothesis Ecm : cm = commitment (pp_gs pp) (pp_h pp) N ms om.
Hypothesis Ecr : cr = commitment (pp_gs pp) (pp_h pp) N rs or_.

Lemma known_open d Y w o w1 w2 o1 o2 : Y = commitment (pp_gs pp) (pp_h pp) N w o -> length w = m -> nonneg w -> 0 <= o -> length w1 = m -> length w2 = m -> nonneg w1 -> nonneg w2 -> 0 <= o1 -> 0 <= o2 ->
  over N d Y c1 (com C b w1 o1) -> over N d Y c2 (com C b w2 o2) -> eqmod N (zc (map2 Z.sub (map (Z.mul D) w) (map2 Z.sub w1 w2)) (D * o - (o1 - o2))) 1.
Proof.
  intros EY Lw Nw No L1 L2 NW1 NW2 O1 O2 V1 V2. destruct (two_coms _ _ _ _ _ _ (eq_trans L1 (eq_sym L2)) NW1 NW2 O1 O2 V1 V2) as [GY E1].
  apply (zcom_equal N T HT FN _ _ Ug Uh); [rewrite map_length, map2_len by congruence; congruence|].
  rewrite (zcom_scale N T HT FN _ _ Ug Uh), <- E1. apply (zp_eqmod N T). rewrite EY. apply (zcom_pos N T HT FN _ _ Ug Uh); assumption.
Qed.
Definition pairs : list (list Z * Z) :=
  [ (map2 Z.sub (map (Z.mul D) ms) (dl v_messages), D * om - dz v_messages_open);
    (map2 Z.sub (map (Z.mul D) rs) (dl v_rs), D * or_ - dz v_rs_open);
    (map2 Z.sub (map (Z.mul D) (dl v_alphas)) (map2 Z.mul (dl v_as) (dl v_messages)), D * dz v_alphas_1 - (sum (map2 Z.mul (dl v_as_open) (dl v_messages)) + D * dz v_alphas_2));
    (map2 Z.sub (map (Z.mul D) (dl v_gammas)) (map2 Z.mul (dl v_as) (dl v_rs)), D * dz v_gammas_1 - (sum (map2 Z.mul (dl v_as_open) (dl v_rs)) + D * dz v_gammas_2)) ].
Lemma pairs_open : Forall (fun wo => opens_twice (pp_gs pp) (pp_h pp) N (fst wo) (snd wo)) pairs.
Proof.
  pose proof S1 as T1. pose proof S2 as T2. pose proof Q1 as R1. pose proof Q2 as R2. destruct T1 as [zm1 zr1 za1 zao1 zb1 zal1 zga1 ze1 ym1 yr1 ya1 yao1 yb1 yal1 yga1 ye1 ymo1 yro1 ybo1 yal11 yal21 yga11 yga21].
  destruct T2 as [zm2 zr2 za2 zao2 zb2 zal2 zga2 ze2 ym2 yr2 ya2 yao2 yb2 yal2 yga2 ye2 ymo2 yro2 ybo2 yal12 yal22 yga12 yga22].
  destruct R1 as [um1 ur1 ua1 ub1 ual11 ual21 uga11 uga21 uct1]. destruct R2 as [um2 ur2 ua2 ub2 ual12 ual22 uga12 uga22 uct2].
  cbn [first_of f_messages f_rs f_as f_bs f_alphas_1 f_alphas_2 f_gammas_1 f_gammas_2 f_cts] in *.
  constructor; [|constructor; [|constructor; [|constructor; [|constructor]]]]; cbn [fst snd]; apply twice_of_one.
  - apply (known_open _ _ _ _ _ _ _ _ Ecm Lm Nm Nom zm1 zm2 ym1 ym2 ymo1 ymo2 um1 um2).
  - apply (known_open _ _ _ _ _ _ _ _ Ecr Lr Nr Nor zr1 zr2 yr1 yr2 yro1 yro2 ur1 ur2).
  - apply (product_open _ _ _ _ _ _ _ _ _ _ _ zal1 zal2 zm1 zm2 yal1 yal2 ym1 ym2 yal11 yal12 yal21 yal22 ual11 ual12 ual21 ual22).
  - apply (product_open _ _ _ _ _ _ _ _ _ _ _ zga1 zga2 zr1 zr2 yga1 yga2 yr1 yr2 yga11 yga12 yga21 yga22 uga11 uga12 uga21 uga22).
Qed.
Lemma all_zero a c : length a = length c -> ~ (exists x, In x (map2 Z.sub a c) /\ x <> 0) -> a = c.
Proof.
  revert c. induction a as [|x a IH]; intros [|z c] Hl Hn; cbn [length map2] in *; try reflexivity; try lia. f_equal.
  - destruct (Z.eq_dec (x - z) 0) as [X|X]; [lia|]. exfalso. apply Hn. exists (x - z). split; [left; reflexivity|exact X].
  - apply IH; [lia|]. intros (u & Hu & Hz). apply Hn. exists u. split; [right; exact Hu|exact Hz].
Qed.
Hypothesis Bind : Forall (fun wo => ~ breaks_binding (pp_gs pp) (pp_h pp) N wo) pairs.
(** The committed values and products, if no pair of openings breaks the commitment scheme. *)
Lemma bound_values j : (j < m)%nat -> nth j (dl v_alphas) 0 = nth j (dl v_as) 0 * nth j ms 0 /\ nth j (dl v_gammas) 0 = nth j (dl v_as) 0 * nth j rs 0.
Proof.
  intros Hj. pose proof pairs_open as Op. pose proof Bind as Bd. unfold pairs in Op, Bd.
  pose proof (Forall_inv Op) as O1. apply Forall_inv_tail in Op. pose proof (Forall_inv Op) as O2. apply Forall_inv_tail in Op. pose proof (Forall_inv Op) as O3. apply Forall_inv_tail in Op. pose proof (Forall_inv Op) as O4. clear Op.
  pose proof (Forall_inv Bd) as B1. apply Forall_inv_tail in Bd. pose proof (Forall_inv Bd) as B2. apply Forall_inv_tail in Bd. pose proof (Forall_inv Bd) as B3. apply Forall_inv_tail in Bd. pose proof (Forall_inv Bd) as B4. clear Bd.
  unfold breaks_binding in *. cbn [fst snd] in *.
  assert (LL : forall g, length (g v1) = m -> length (g v2) = m -> length (dl g) = m) by (intros g X1 X2; rewrite map2_len; congruence).
  pose proof S1 as T1. pose proof S2 as T2. destruct T1 as [zm1 zr1 za1 zao1 zb1 zal1 zga1 ze1 _ _ _ _ _ _ _ _ _ _ _ _ _ _ _]. destruct T2 as [zm2 zr2 za2 zao2 zb2 zal2 zga2 ze2 _ _ _ _ _ _ _ _ _ _ _ _ _ _ _].
  pose proof (LL v_messages zm1 zm2) as Lmm. pose proof (LL v_rs zr1 zr2) as Lrr. pose proof (LL v_as za1 za2) as Laa. pose proof (LL v_alphas zal1 zal2) as Lll. pose proof (LL v_gammas zga1 zga2) as Lgg.
  assert (A1 : map (Z.mul D) ms = dl v_messages) by (apply all_zero; [rewrite map_length; congruence|tauto]).
  assert (A2 : map (Z.mul D) rs = dl v_rs) by (apply all_zero; [rewrite map_length; congruence|tauto]).
  assert (A3 : map (Z.mul D) (dl v_alphas) = map2 Z.mul (dl v_as) (dl v_messages)) by (apply all_zero; [rewrite map_length, Lll, map2_len by congruence; congruence|tauto]).
  assert (A4 : map (Z.mul D) (dl v_gammas) = map2 Z.mul (dl v_as) (dl v_rs)) by (apply all_zero; [rewrite map_length, Lgg, map2_len by congruence; congruence|tauto]).
  assert (NM : forall l i, nth i (map (Z.mul D) l) 0 = D * nth i l 0) by (intros l i; rewrite <- (map_nth (Z.mul D)), Z.mul_0_r; reflexivity).
  apply (f_equal (fun l => nth j l 0)) in A1, A2, A3, A4. rewrite map2_nth in A3 by (first [reflexivity|congruence]). rewrite map2_nth in A4 by (first [reflexivity|congruence]).
  rewrite <- A1, !NM in A3. rewrite <- A2, !NM in A4. clear - A3 A4 Hd. split; nia.
Qed.

(** ** The encrypted values *)
Lemma ct_two i l : (i < length cts)%nat -> (i < num_cts len m)%nat -> (l < len)%nat -> exists ct, nth_error cts i = Some ct /\
  Z.gcd (ct_u ct) M = 1 /\ Z.gcd (nth l (ct_es ct) 0) M = 1 /\
  let R v := hr C b rk ry (v_as v) (v_gammas v) (v_enc v) i in let F v := hf C b k y (hidden C v) (v_as v) (v_gammas v) i l in
  eqmod M (zq (ct_u ct) D) (zq (cs_g cs) (R v1 - R v2)) /\
  eqmod M (zq (nth l (ct_es ct) 0) D) (zq (zq (cs_g cs) (R v1 - R v2)) (nth l xs 0) * zq (1 + n) (F v1 - F v2)).
Proof.
  intros Hi Hi' Hl. pose proof (M1 n s cs W) as HM. destruct (u_ct _ _ _ _ _ _ _ _ _ _ _ _ _ _ Q1 i Hi) as (d1 & x1 & ct & N1d & N1x & N1c & V1 & E1).
  destruct (u_ct _ _ _ _ _ _ _ _ _ _ _ _ _ _ Q2 i Hi) as (d2 & x2 & ct2 & N2d & N2x & N2c & V2 & E2).
  assert (d2 = d1) by congruence. assert (ct2 = ct) by congruence. subst d2 ct2. exists ct. split; [exact N1c|].
  specialize (E1 l Hl). specialize (E2 l Hl). pose proof (over_two M _ _ c1 c2 _ _ H1 H2 Hd V1 V2) as GU. pose proof (over_two M _ _ c1 c2 _ _ H1 H2 Hd E1 E2) as GE. split; [exact GU|]. split; [exact GE|].
  cbn [first_of f_cts] in N1x, N2x. rewrite (z_m _ _ _ _ S1), tab_at in N1x by exact Hi'. rewrite (z_m _ _ _ _ S2), tab_at in N2x by exact Hi'. injection N1x as <-. injection N2x as <-.
  intros R F. cbn [enc ct_u ct_es] in V1, V2, E1, E2. fold (R v1) in V1, E1. fold (R v2) in V2, E2. rewrite tab_nth in E1, E2. destruct (Nat.ltb_spec l len) as [_|]; [|lia]. unfold enc_e in E1, E2. fold (F v1) in E1. fold (F v2) in E2.
  assert (NR : forall v, shaped C b m v -> 0 <= R v). { intros v Sv. apply hr_nonneg; [exact Hlen|exact Hrk|exact Hry|apply Sv..]. }
  assert (NF : forall v, shaped C b m v -> 0 <= F v). { intros v Sv. apply hf_nonneg; [exact Hlen|exact Hk0|exact Hy0|apply (hidden_nonneg C b Hlen Hq m v Sv)|apply Sv..]. }
  pose proof (NR v1 S1) as R1. pose proof (NR v2 S2) as R2. pose proof (NF v1 S1) as F1. pose proof (NF v2 S2) as F2.
  assert (Gg : Z.gcd (cs_g cs) M = 1) by (apply (gcdM n s); exact Hg). assert (Gn : Z.gcd (1 + n) M = 1) by (rewrite <- (Z.pow_1_r (1 + n)); apply (np1_unit n s); lia).
  pose proof (x_nonneg n s cs xs W Hk l) as Hx.
  pose proof (two_quotients M T HT FM _ _ _ _ c1 c2 GU H1 H2 (proj1 V1) (proj1 V2)) as QU. pose proof (two_quotients M T HT FM _ _ _ _ c1 c2 GE H1 H2 (proj1 E1) (proj1 E2)) as QE.
  rewrite !(eqmod_mod M) in QU, QE. rewrite <- !(zp_pos M T HT FM (cs_g cs)) in QU by assumption.
  assert (SG : eqmod M (zq (cs_g cs) (R v1)) (zq (cs_g cs) (R v2) * zq (cs_g cs) (R v1 - R v2))) by (rewrite <- (zp_add M T HT FM) by exact Gg; replace (R v2 + (R v1 - R v2)) with (R v1) by ring; reflexivity).
  assert (SN : eqmod M (zq (1 + n) (F v1)) (zq (1 + n) (F v2) * zq (1 + n) (F v1 - F v2))) by (rewrite <- (zp_add M T HT FM) by exact Gn; replace (F v2 + (F v1 - F v2)) with (F v1) by ring; reflexivity).
  split.
  - apply (eqmod_cancel M (zq (cs_g cs) (R v2))); [apply (zp_unit M T HT); exact Gg|]. rewrite Z.mul_comm, QU. exact SG.
  - assert (PX : forall r f, 0 <= r -> 0 <= f -> eqmod M ((cs_g cs ^ r) ^ nth l xs 0 * (1 + n) ^ f) (zq (zq (cs_g cs) r) (nth l xs 0) * zq (1 + n) f)).
    { intros r f0 Hr Hf. rewrite (zp_pos M T HT FM (1 + n)) by assumption. rewrite (zp_eqmod M T _ _ (nth l xs 0) (zp_pos M T HT FM (cs_g cs) r Gg Hr)).
      rewrite (zp_pos M T HT FM (cs_g cs ^ r)) by (try assumption; apply coprime_pow_gcd; assumption). reflexivity. }
    rewrite (PX _ _ R1 F1), (PX _ _ R2 F2) in QE.
    apply (eqmod_cancel M (zq (zq (cs_g cs) (R v2)) (nth l xs 0) * zq (1 + n) (F v2))); [apply gcd_mul_l; apply (zp_unit M T HT); [apply (zp_unit M T HT); exact Gg|exact Gn]|].
    rewrite Z.mul_comm, QE. rewrite (zp_eqmod M T _ _ (nth l xs 0) SG), zp_base, SN. exists 0. ring.
Qed.
(** What the component decrypts to. *)
Lemma decrypted i l ct bt : (i < length cts)%nat -> (i < num_cts len m)%nat -> (l < len)%nat -> nth_error cts i = Some ct -> 0 <= bt ->
  cs_opens n s (nth l xs 0) (ct_u ct) (nth l (ct_es ct) 0) bt ->
  (P | D * bt - (hf C b k y (hidden C v1) (v_as v1) (v_gammas v1) i l - hf C b k y (hidden C v2) (v_as v2) (v_gammas v2) i l)).
Proof.
  intros Hi Hi' Hl Nc Hb [_ Op]. pose proof (M1 n s cs W) as HM. pose proof (n1 n s cs W) as Hn. destruct (ct_two i l Hi Hi' Hl) as (ct' & Nc' & GU & GE & EU & EE). assert (ct' = ct) by congruence. subst ct'.
  set (F := hf C b k y (hidden C v1) (v_as v1) (v_gammas v1) i l - hf C b k y (hidden C v2) (v_as v2) (v_gammas v2) i l) in *. cbv zeta in EU, EE.
  set (R := hr C b rk ry (v_as v1) (v_gammas v1) (v_enc v1) i - hr C b rk ry (v_as v2) (v_gammas v2) (v_enc v2) i) in *.
  change (eqmod M (nth l (ct_es ct) 0) (ct_u ct ^ nth l xs 0 * (1 + n) ^ bt)) in Op.
  assert (Gn : Z.gcd (1 + n) M = 1) by (rewrite <- (Z.pow_1_r (1 + n)); apply (np1_unit n s); lia). pose proof (x_nonneg n s cs xs W Hk l) as Hx.
  assert (Op' : eqmod M (nth l (ct_es ct) 0) (zq (ct_u ct) (nth l xs 0) * zq (1 + n) bt)) by (rewrite Op, !(zp_pos M T HT FM) by assumption; reflexivity).
  rewrite (zp_eqmod M T _ _ D Op'), zp_base, !(zp_mul M T HT FM) in EE by assumption.
  rewrite <- (zp_eqmod M T _ _ (nth l xs 0) EU), (zp_mul M T HT FM) in EE by exact GU. rewrite (Z.mul_comm (nth l xs 0)) in EE.
  apply (eqmod_cancel M) in EE; [|apply (zp_unit M T HT); exact GU].
  assert (E0 : eqmod M (zq (1 + n) (bt * D - F)) 1).
  { apply (eqmod_cancel M (zq (1 + n) F)); [apply (zp_unit M T HT); exact Gn|]. rewrite <- (zp_add M T HT FM) by exact Gn. replace (F + (bt * D - F)) with (bt * D) by ring. rewrite EE, Z.mul_1_r. reflexivity. }
  assert (Inj : forall e, 0 <= e -> eqmod M ((1 + n) ^ e) 1 -> (P | e)).
  { intros e He Ee. apply eqmod_0. apply (one_plus_inj n 1 s); [exact Hn|apply Z.gcd_1_l|exact (w_fact _ _ _ W)|exact He|apply Z.le_refl|]. rewrite Z.mul_1_r, Z.pow_0_r. exact Ee. }
  assert (PT : (P | T)) by (apply Inj; [lia|exact (FM (1 + n) Gn)]).
  assert (PE : (P | (bt * D - F) mod T)) by (apply Inj; [apply Z.mod_pos_bound; exact HT|exact E0]).
  replace (D * bt - F) with (T * ((bt * D - F) / T) + (bt * D - F) mod T) by (rewrite <- Z.div_mod by lia; ring).
  apply Z.divide_add_r; [apply Z.divide_mul_l; exact PT|exact PE].
Qed.
End Two.
