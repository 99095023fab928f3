(** Lemmas about Camenisch-Shoup encryption. *)
From Coq Require Import Znumtheory.
From Verif Require Import Base M_BigNum L_BigNum M_Num L_Mod L_Num L_NT M_DJ L_DJ M_Paillier L_Paillier L_PaillierKey M_EC M_Proto M_CS S_CS.

(** For odd n every u = 1 mod n is a power of 1 + n modulo n^(s+1). *)
Lemma one_plus_surj n s u : 2 < n -> Z.odd n = true -> eqmod n u 1 -> exists i, 0 <= i /\ eqmod (n ^ (Z.of_nat s + 1)) ((1 + n) ^ i) u.
Proof.
  intros Hn Ho Hu. induction s as [|j IH].
  - exists 0. split; [lia|]. cbn [Z.of_nat]. rewrite Z.add_0_l, Z.pow_1_r, Z.pow_0_r. symmetry. exact Hu.
  - destruct IH as (i & Hi & [w Hw]).
    pose proof (one_plus_pow n n j Hn Ho (Z.divide_refl n)) as Hpow.
    assert (Hpp : 0 < n ^ Z.of_nat j) by (apply Z.pow_pos_nonneg; lia).
    set (t := (- w) mod n). assert (Ht : 0 <= t < n) by (apply Z.mod_pos_bound; lia).
    exists (i + n ^ Z.of_nat j * t). split; [apply Z.add_nonneg_nonneg; [exact Hi|apply Z.mul_nonneg_nonneg; lia]|].
    rewrite Nat2Z.inj_succ. replace (Z.succ (Z.of_nat j) + 1) with (Z.of_nat j + 2) by lia.
    rewrite (Z.pow_add_r (1 + n)) by (try exact Hi; apply Z.mul_nonneg_nonneg; lia). rewrite (Z.pow_mul_r (1 + n)) by lia. rewrite Hpow.
    set (P := n ^ (Z.of_nat j + 1)) in *.
    assert (EP1 : P = n ^ Z.of_nat j * n) by (unfold P; rewrite Z.pow_add_r, Z.pow_1_r by lia; reflexivity).
    rewrite <- EP1.
    assert (EPP : n ^ (Z.of_nat j + 2) = P * n).
    { unfold P. replace (Z.of_nat j + 2) with (Z.of_nat j + 1 + 1) by lia. rewrite (Z.pow_add_r n (Z.of_nat j + 1) 1), Z.pow_1_r by lia. reflexivity. }
    rewrite EPP.
    assert (HPP : (P * n | P ^ 2)) by (exists (n ^ Z.of_nat j); rewrite Z.pow_2_r, EP1; ring).
    assert (Et : eqmod (P * n) ((1 + P) ^ t) (1 + t * P)).
    { rewrite <- (Z2Nat.id t) at 1 by lia. apply (eqmod_divide _ _ _ _ HPP). change 2 with (Z.of_nat 2).
      rewrite (binomial_trunc P (Z.to_nat t) 1). unfold bin_sum. cbn [zsum].
      assert (B1 : binom (Z.to_nat t) 1 = t).
      { pose proof (binom_ff (Z.to_nat t) 1) as B. change (zfact 1) with 1 in B. cbn [ff] in B. rewrite Z2Nat.id in B by lia.
        change (Z.of_nat 0) with 0 in B. lia. }
      rewrite binom_0_r, B1. change (Z.of_nat 0) with 0. change (Z.of_nat 1) with 1. rewrite Z.pow_0_r, Z.pow_1_r, Z.add_0_l, Z.mul_1_l. reflexivity. }
    rewrite Et. replace ((1 + n) ^ i) with (u + w * P) by lia.
    destruct Hu as [v Hv].
    assert (Eto : eqmod n t (- w)) by (unfold t; apply eqmod_mod). destruct Eto as [z Hz].
    exists (z + v * t + n ^ Z.of_nat j * w * t).
    replace ((u + w * P) * (1 + t * P) - u) with (P * (w + t + (u - 1) * t + w * P * t)) by ring.
    replace (w + t) with (z * n) by lia. rewrite Hv. rewrite EP1. ring.
Qed.

Record cs_valid (n : Z) (s : nat) (pk : cs_public) : Prop := {
  w_gt : 1 < n; w_odd : Z.odd n = true; w_n : cs_n pk = n; w_s : cs_s pk = s; w_pow : cs_powers pk = get_powers n s;
  w_pre : pre_spec n n s (cs_precomp pk); w_mod : cs_modulus pk = n ^ (Z.of_nat s + 1); w_ns : cs_n_to_s pk = n ^ Z.of_nat s;
  w_g : 0 <= cs_g pk < n ^ (Z.of_nat s + 1); w_ys : Forall (fun y => 0 <= y < n ^ (Z.of_nat s + 1)) (cs_ys pk); w_fact : fact_coprime n s
}.
Record cs_priv_valid (n : Z) (s : nat) (sk : cs_private) : Prop := {
  x_pub : cs_valid n s (cs_pub sk); x_len : length (cs_xs sk) = length (cs_ys (cs_pub sk));
  x_table : forall x j, (2 <= x)%nat -> (x <= j <= s)%nat -> exists v, table_get (s + 1) (cs_table sk) x j = Ok v /\ entry_ok n n x j v
}.

Lemma mapM_unit {A} (f : A -> outcome unit) l : (forall x, In x l -> f x = Ok tt) -> exists r, mapM f l = Ok r.
Proof.
  induction l as [|x l IH]; intros H; cbn [mapM]; [eexists; reflexivity|]. rewrite (H x (or_introl eq_refl)). cbn [bind].
  destruct IH as (r & E); [intros y Hy; apply H; right; exact Hy|]. rewrite E. eexists. reflexivity.
Qed.

Section Create.
Variable flag : bool.
Variables (n : Z) (s : nat).
Hypothesis Hn : 1 < n.
Hypothesis Ho : Z.odd n = true.
Let M := n ^ (Z.of_nat s + 1).

Lemma cs_M_pos : 1 < M.
Proof. apply Z.pow_gt_1; lia. Qed.
Lemma cs_M_odd : Z.odd M = true.
Proof. apply odd_pow; [lia|exact Ho]. Qed.

Lemma cs_public_inv g ys pk : 0 <= g < M -> Forall (fun y => 0 <= y < M) ys -> cs_public_create flag n s g ys = Ok pk ->
  cs_valid n s pk /\ cs_g pk = g /\ cs_ys pk = ys.
Proof.
  intros Hg Hys E. unfold cs_public_create in E. rewrite !get_powers_at in E by lia. cbn [bind] in E. replace (Z.of_nat (s + 1)) with (Z.of_nat s + 1) in E by lia.
  apply bind_ok in E. destruct E as (pre & Epre & E). apply get_precomp_inv in Epre; [|exact Hn]. destruct Epre as [Hpre Hf].
  apply bind_ok in E. destruct E as (? & _ & E). apply bind_ok in E. destruct E as (? & _ & E). injection E as <-.
  split; [|split; reflexivity]. constructor; cbn; try assumption; reflexivity.
Qed.
Lemma cs_public_ok g ys : fact_coprime n s -> 0 <= g < M -> Forall (fun y => 0 <= y < M) ys -> exists pk, cs_public_create flag n s g ys = Ok pk.
Proof.
  intros Hf Hg Hys. unfold cs_public_create. rewrite !get_powers_at by lia. cbn [bind]. replace (Z.of_nat (s + 1)) with (Z.of_nat s + 1) by lia.
  destruct (get_precomp_ok n n s Hn Hf) as (pre & Epre). rewrite Epre. cbn [bind]. fold M.
  rewrite fbe_create_ok by (try apply cs_M_pos; try apply cs_M_odd; exact Hg). cbn [bind].
  destruct (mapM_unit (fun y => fbe_create flag y M) ys) as (r & Er).
  - intros y Hy. rewrite Forall_forall in Hys. apply fbe_create_ok; [apply cs_M_pos|apply cs_M_odd|apply Hys, Hy].
  - rewrite Er. cbn [bind]. eexists. reflexivity.
Qed.
Lemma cs_private_inv g ys xs sk : 0 <= g < M -> Forall (fun y => 0 <= y < M) ys -> cs_private_create flag n s g ys xs = Ok sk ->
  cs_priv_valid n s sk /\ cs_g (cs_pub sk) = g /\ cs_ys (cs_pub sk) = ys /\ cs_xs sk = xs.
Proof.
  intros Hg Hys E. unfold cs_private_create in E. rewrite !get_powers_at in E by lia. cbn [bind] in E. replace (Z.of_nat (s + 1)) with (Z.of_nat s + 1) in E by lia.
  apply bind_ok in E. destruct E as (pre & Epre & E). apply get_precomp_inv in Epre; [|exact Hn]. destruct Epre as [Hpre Hf].
  destruct (get_decrypt_precomp_ok n n s pre Hn Hpre Hf) as (t & Et & Ht). rewrite Et in E. cbn [bind] in E.
  apply bind_ok in E. destruct E as (? & _ & E). destruct (Nat.eqb_spec (length ys) (length xs)) as [El|]; [|discriminate]. cbn [negb] in E.
  apply bind_ok in E. destruct E as (? & _ & E). injection E as <-. split; [|split; [reflexivity|split; reflexivity]].
  constructor; cbn; [|congruence|exact Ht]. constructor; cbn; try assumption; reflexivity.
Qed.
Lemma cs_private_ok g ys xs : fact_coprime n s -> 0 <= g < M -> Forall (fun y => 0 <= y < M) ys -> length ys = length xs -> exists sk, cs_private_create flag n s g ys xs = Ok sk.
Proof.
  intros Hf Hg Hys El. unfold cs_private_create. rewrite !get_powers_at by lia. cbn [bind]. replace (Z.of_nat (s + 1)) with (Z.of_nat s + 1) by lia.
  destruct (get_precomp_ok n n s Hn Hf) as (pre & Epre). rewrite Epre. cbn [bind]. fold M. destruct (get_precomp_inv n n s pre Hn Epre) as [Hpre _].
  destruct (get_decrypt_precomp_ok n n s pre Hn Hpre Hf) as (t & Et & Ht). rewrite Et. cbn [bind].
  rewrite fbe_create_ok by (try apply cs_M_pos; try apply cs_M_odd; exact Hg). cbn [bind]. rewrite El, Nat.eqb_refl. cbn [negb].
  destruct (mapM_unit (fun y => fbe_create flag y M) ys) as (r & Er).
  - intros y Hy. rewrite Forall_forall in Hys. apply fbe_create_ok; [apply cs_M_pos|apply cs_M_odd|apply Hys, Hy].
  - rewrite Er. cbn [bind]. eexists. reflexivity.
Qed.
End Create.

(** ** Decryption *)

Section Decrypt.
Variables (n : Z) (s : nat) (sk : cs_private).
Hypothesis K : cs_priv_valid n s sk.
Let M := n ^ (Z.of_nat s + 1).
Let P := n ^ Z.of_nat s.
Let W := x_pub _ _ _ K.

Lemma k_gt : 2 < n.
Proof.
  pose proof (w_gt _ _ _ W) as G. pose proof (w_odd _ _ _ W) as O1. destruct (Z.eq_dec n 2) as [E|]; [|lia]. rewrite E in O1. discriminate.
Qed.
Lemma k_M : 1 < M.
Proof. pose proof k_gt. apply Z.pow_gt_1; lia. Qed.
Lemma k_P : 0 < P.
Proof. pose proof k_gt. apply Z.pow_pos_nonneg; lia. Qed.
Lemma k_nM : (n | M).
Proof. exists (n ^ Z.of_nat s). unfold M. rewrite Z.pow_add_r, Z.pow_1_r by lia. ring. Qed.

Lemma cs_inner_ok i j : 0 <= i -> (1 <= j <= s)%nat -> forall cnt k m t1 t2, (k + cnt = j + 1)%nat -> (2 <= k)%nat ->
  eqmod (n ^ Z.of_nat (j - 1)) m (i - Z.of_nat (k - 2)) -> eqmod (n ^ Z.of_nat (j - 1)) t2 (ff i (k - 1)) ->
  exists r, cs_inner cnt k j sk m t1 t2 = Ok r /\
    eqmod (n ^ Z.of_nat j) r (t1 - (zsum (fun x => binom (Z.to_nat i) (S (S x)) * n ^ Z.of_nat (S x)) (j - 1) - zsum (fun x => binom (Z.to_nat i) (S (S x)) * n ^ Z.of_nat (S x)) (k - 2))).
Proof.
  intros Hi Hj. pose proof k_gt as H5. induction cnt as [|cnt IH]; intros k m t1 t2 Hk H2 Hm Ht; cbn [cs_inner].
  - exists t1. split; [reflexivity|]. replace (k - 2)%nat with (j - 1)%nat by lia. rewrite Z.sub_diag, Z.sub_0_r. reflexivity.
  - rewrite (w_pow _ _ _ W), get_powers_at by lia. cbn [bind]. assert (Hpj : 0 < n ^ Z.of_nat j) by (apply Z.pow_pos_nonneg; lia).
    rewrite bn_mod_mul_ok by exact Hpj. cbn [bind].
    rewrite (w_s _ _ _ W). destruct (x_table _ _ _ K k j H2 ltac:(lia)) as (v & Ev & Hv). rewrite Ev. cbn [bind]. rewrite bn_mod_mul_ok by exact Hpj. cbn [bind].
    set (t2' := (t2 * (m - 1)) mod n ^ Z.of_nat j).
    assert (Ht' : eqmod (n ^ Z.of_nat (j - 1)) t2' (ff i k)).
    { unfold t2'. rewrite (eqmod_divide _ _ _ _ (pow_divide_pow n (Z.of_nat (j - 1)) (Z.of_nat j) ltac:(lia)) (eqmod_mod _ _)).
      rewrite Ht, Hm. replace k with (S (k - 1)) at 3 by lia. cbn [ff]. replace (i - Z.of_nat (k - 2) - 1) with (i - Z.of_nat (k - 1)) by lia. reflexivity. }
    destruct (IH (k + 1)%nat (m - 1) (t1 - (t2' * v) mod n ^ Z.of_nat j) t2') as (r & Er & Hr); [lia|lia| | |].
    + rewrite Hm. replace (i - Z.of_nat (k - 2) - 1) with (i - Z.of_nat (k + 1 - 2)) by lia. reflexivity.
    + replace (k + 1 - 1)%nat with k by lia. exact Ht'.
    + rewrite Er. exists r. split; [reflexivity|]. rewrite Hr. rewrite (eqmod_mod (n ^ Z.of_nat j)).
      pose proof (extract_term n n s k j i t2' v ltac:(lia) (Z.divide_refl n) (w_fact _ _ _ W) ltac:(lia) ltac:(lia) Hi Hv Ht') as Hx. rewrite Hx.
      replace (k + 1 - 2)%nat with (S (k - 2)) by lia. cbn [zsum]. replace (S (S (k - 2))) with k by lia. replace (S (k - 2)) with (k - 1)%nat by lia.
      set (A := zsum _ (j - 1)). set (B := zsum _ (k - 2)). set (T := binom (Z.to_nat i) k * n ^ Z.of_nat (k - 1)).
      assert (E : t1 - T - (A - (B + T)) = t1 - (A - B)) by ring. rewrite E. reflexivity.
Qed.

(** The exact quotient computed by LFunc at step j. *)
Lemma cs_lfunc_ok d i j : 0 <= i -> (1 <= j <= s)%nat -> eqmod M d ((1 + n) ^ i) ->
  let t := d mod n ^ Z.of_nat (j + 1) - 1 in bn_mod t n = Ok 0 /\ exists l, bn_div t n = Ok l /\ eqmod (n ^ Z.of_nat j) l (lsum n i j).
Proof.
  intros Hi Hj Hd t. pose proof k_gt as H2. set (Pj := n ^ Z.of_nat (j + 1)).
  assert (HPj : 0 < Pj) by (apply Z.pow_pos_nonneg; lia).
  assert (EPj : Pj = n ^ Z.of_nat j * n) by (unfold Pj; replace (Z.of_nat (j + 1)) with (Z.of_nat j + 1) by lia; rewrite Z.pow_add_r, Z.pow_1_r by lia; reflexivity).
  assert (Ht : eqmod Pj t (n * lsum n i j)).
  { unfold t. fold Pj. rewrite (eqmod_mod Pj).
    assert (D : eqmod Pj d ((1 + n) ^ i)) by (apply (eqmod_divide Pj M); [apply pow_divide_pow; lia|exact Hd]). rewrite D.
    pose proof (one_plus_lsum n i j Hi) as O1. replace (S j) with (j + 1)%nat in O1 by lia. fold Pj in O1. rewrite O1.
    assert (E : 1 + n * lsum n i j - 1 = n * lsum n i j) by ring. rewrite E. reflexivity. }
  destruct Ht as [w Hw]. assert (Et : t = (w * n ^ Z.of_nat j + lsum n i j) * n) by (rewrite EPj in Hw; lia).
  split.
  - rewrite bn_mod_ok by lia. rewrite Et, Z_mod_mult. reflexivity.
  - destruct (bn_div_exact t n ltac:(lia)) as [E1 E2]; [eexists; exact Et|]. exists (Z.quot t n). split; [exact E1|].
    assert (Z.quot t n = w * n ^ Z.of_nat j + lsum n i j) as ->. { rewrite Et. apply Z.quot_mul. lia. }
    exists w. ring.
Qed.

Lemma cs_outer_ok i d : 0 <= i -> eqmod M d ((1 + n) ^ i) -> forall cnt j m, (j + cnt = s + 1)%nat -> (1 <= j)%nat ->
  eqmod (n ^ Z.of_nat (j - 1)) m i -> exists r, cs_outer cnt j sk d m = Ok r /\ eqmod P r i.
Proof.
  intros Hi Hd. pose proof k_gt as H5. induction cnt as [|cnt IH]; intros j m Hj H1 Hm; cbn [cs_outer].
  - exists m. split; [reflexivity|]. unfold P. replace s with (j - 1)%nat by lia. exact Hm.
  - rewrite (w_pow _ _ _ W), get_powers_at by lia. cbn [bind]. rewrite bn_mod_ok by (apply Z.pow_pos_nonneg; lia). cbn [bind]. rewrite (w_n _ _ _ W).
    destruct (cs_lfunc_ok d i j Hi ltac:(lia) Hd) as (E0 & l & El & Hl). cbv zeta in E0, El. rewrite E0. cbn [bind]. cbn [Z.eqb negb]. rewrite El. cbn [bind].
    destruct (cs_inner_ok i j Hi ltac:(lia) (j - 1) 2 m l m) as (r & Er & Hr); [lia|lia| | |].
    + rewrite Hm. change (Z.of_nat (2 - 2)) with 0. rewrite Z.sub_0_r. reflexivity.
    + cbn [Nat.sub ff]. rewrite Hm. change (Z.of_nat 0) with 0. rewrite Z.sub_0_r, Z.mul_1_l. reflexivity.
    + rewrite Er. cbn [bind]. apply IH; [lia|lia|]. replace (j + 1 - 1)%nat with j by lia. rewrite Hr.
      rewrite Hl, lsum_first by lia. cbn [Nat.sub zsum]. set (A := zsum _ _). assert (E : i + A - (A - 0) = i) by ring. rewrite E. reflexivity.
Qed.

Lemma cs_outer_corrupt d cnt : (1 <= cnt)%nat -> (cnt = s)%nat -> ~ eqmod n d 1 -> cs_outer cnt 1 sk d 0 = Err InvalidArgument.
Proof.
  intros Hc Hs Hd. pose proof k_gt as H2. destruct cnt as [|cnt]; [lia|]. cbn [cs_outer]. rewrite (w_pow _ _ _ W), get_powers_at by lia. cbn [bind].
  rewrite bn_mod_ok by (apply Z.pow_pos_nonneg; lia). cbn [bind]. rewrite (w_n _ _ _ W), bn_mod_ok by lia. cbn [bind].
  destruct (Z.eqb_spec ((d mod n ^ Z.of_nat (1 + 1) - 1) mod n) 0) as [E|]; [|reflexivity]. exfalso. apply Hd.
  apply Z.mod_divide in E; [|lia]. change (eqmod n (d mod n ^ Z.of_nat (1 + 1)) 1) in E. rewrite <- E. symmetry.
  apply (eqmod_divide n (n ^ Z.of_nat (1 + 1))); [|apply eqmod_mod]. exists n. cbn [Nat.add]. change (Z.of_nat 2) with 2. ring.
Qed.

(** One component: decryption returns exactly the opening, and rejects components without one. *)
Lemma cs_decrypt_one_open x u e m : 0 <= x -> 0 <= m -> cs_opens n s x u e m -> cs_decrypt_one sk u x e = Ok (m mod P).
Proof.
  intros Hx Hm [G D]. pose proof k_gt as H2. pose proof k_M as HM. change (eqmod M e (u ^ x * (1 + n) ^ m)) in D.
  unfold cs_decrypt_one. rewrite (w_mod _ _ _ W). fold M. rewrite bn_mod_exp_ok by lia. cbn [bind].
  assert (G' : Z.gcd (u ^ x mod M) M = 1).
  { apply (gcd_eqmod _ (u ^ x)); [apply eqmod_mod|]. apply gcd_pow_r; [lia|exact G]. }
  destruct (bn_mod_inverse_ok (u ^ x mod M) M ltac:(lia) G') as (inv & Einv & _ & I). rewrite Einv. cbn [bind]. rewrite bn_mod_mul_ok by lia. cbn [bind].
  apply eq_eqmod in I. rewrite (eqmod_mod M) in I.
  destruct (cs_outer_ok m ((e * inv) mod M) Hm) with (cnt := s) (j := 1%nat) (m := 0) as (r & Er & Hr); [|lia|lia| |].
  - rewrite (eqmod_mod M), D. replace (u ^ x * (1 + n) ^ m * inv) with ((u ^ x * inv) * (1 + n) ^ m) by ring. rewrite I, Z.mul_1_l. reflexivity.
  - change (Z.of_nat (1 - 1)) with 0. rewrite Z.pow_0_r. exists (- m). ring.
  - rewrite (w_s _ _ _ W), Er. cbn [bind]. rewrite (w_pow _ _ _ W), get_powers_at by lia. cbn [bind]. rewrite bn_mod_ok by apply k_P. f_equal. apply eqmod_eq; [apply k_P|exact Hr].
Qed.
Lemma cs_decrypt_one_total x u e : (1 <= s)%nat -> 0 <= x ->
  (exists m, 0 <= m < P /\ cs_opens n s x u e m /\ cs_decrypt_one sk u x e = Ok m) \/
  (cs_decrypt_one sk u x e = Err InvalidArgument /\ forall m, 0 <= m -> ~ cs_opens n s x u e m).
Proof.
  intros Hs Hx. pose proof k_gt as H2. pose proof k_M as HM.
  destruct (Z.eq_dec (Z.gcd (u ^ x) n) 1) as [G|G].
  - assert (G' : Z.gcd (u ^ x mod M) M = 1).
    { apply (gcd_eqmod _ (u ^ x)); [apply eqmod_mod|]. apply gcd_pow_r; [lia|exact G]. }
    destruct (bn_mod_inverse_ok (u ^ x mod M) M ltac:(lia) G') as (inv & Einv & _ & I). pose proof I as I'. apply eq_eqmod in I'. rewrite (eqmod_mod M) in I'.
    assert (Dec : {(n | e * inv - 1)} + {~ (n | e * inv - 1)}) by apply Zdivide_dec. destruct Dec as [D|D].
    + left. destruct (one_plus_surj n s (e * inv) H2 (w_odd _ _ _ W) D) as (i & Hi & Ei). fold M in Ei.
      assert (Hop : forall m, eqmod M ((1 + n) ^ m) (e * inv) -> cs_opens n s x u e m).
      { intros m Em. split; [exact G|]. apply eqmod_intro. fold M. rewrite Em.
        replace (u ^ x * (e * inv)) with ((u ^ x * inv) * e) by ring. rewrite I', Z.mul_1_l. reflexivity. }
      pose proof (Z.mod_pos_bound i P k_P) as Bm. exists (i mod P). split; [exact Bm|].
      pose proof (one_plus_period n n s ltac:(lia) (Z.divide_refl n) i Hi) as Pd. fold M P in Pd.
      assert (Ho : cs_opens n s x u e (i mod P)) by (apply Hop; rewrite <- Pd; exact Ei). split; [exact Ho|].
      rewrite (cs_decrypt_one_open x u e (i mod P) Hx (proj1 Bm) Ho), Z.mod_mod by (pose proof k_P; lia). reflexivity.
    + right. split.
      * unfold cs_decrypt_one. rewrite (w_mod _ _ _ W). fold M. rewrite bn_mod_exp_ok by lia. cbn [bind]. rewrite Einv. cbn [bind]. rewrite bn_mod_mul_ok by lia. cbn [bind].
        rewrite (w_s _ _ _ W). rewrite cs_outer_corrupt; [reflexivity|exact Hs|reflexivity|]. intros E. apply D. apply eqmod_intro. rewrite <- E. symmetry.
        apply (eqmod_divide n M _ _ k_nM (eqmod_mod _ _)).
      * intros m Hm [_ Hop]. apply D. apply eqmod_intro. change (eqmod M e (u ^ x * (1 + n) ^ m)) in Hop.
        apply (eqmod_divide n M _ _ k_nM) in Hop. apply (eqmod_divide n M _ _ k_nM) in I'. rewrite Hop.
        replace (u ^ x * (1 + n) ^ m * inv) with ((u ^ x * inv) * (1 + n) ^ m) by ring. rewrite I', Z.mul_1_l.
        assert (E1 : eqmod n (1 + n) 1) by (exists 1; ring). rewrite E1, Z.pow_1_l by exact Hm. reflexivity.
  - right. split; [|intros m _ [G' _]; contradiction].
    unfold cs_decrypt_one. rewrite (w_mod _ _ _ W). fold M. rewrite bn_mod_exp_ok by lia. cbn [bind].
    rewrite bn_mod_inverse_err; [reflexivity|lia|]. intros E. apply G.
    assert (G1 : Z.gcd (u ^ x) M = 1).
    { apply (gcd_eqmod _ (u ^ x mod M)); [symmetry; apply eqmod_mod|exact E]. }
    apply (gcd_divide_r _ _ _ k_nM G1).
Qed.

Lemma cs_opens_unique x u e m m' : 0 <= m < P -> 0 <= m' < P -> cs_opens n s x u e m -> cs_opens n s x u e m' -> m = m'.
Proof.
  intros Bm Bm' [G A] [_ B]. pose proof k_gt as H2. change (eqmod M e (u ^ x * (1 + n) ^ m)) in A. change (eqmod M e (u ^ x * (1 + n) ^ m')) in B.
  apply (eqmod_small P); [exact Bm|exact Bm'|]. apply (one_plus_inj n 1 s); [lia|apply Z.gcd_1_l|apply (w_fact _ _ _ W)|lia|lia|]. rewrite Z.mul_1_r.
  fold M. apply (eqmod_cancel M (u ^ x)); [apply gcd_pow_r; [lia|exact G]|]. rewrite <- A, <- B. reflexivity.
Qed.

(** Whole ciphertexts. *)
Lemma cs_decrypt_loop_open u xs es ms : Forall (fun x => 0 <= x) xs -> Forall (fun m => 0 <= m) ms -> cs_opens_all n s u xs es ms ->
  cs_decrypt_loop sk u xs es = Ok (map (fun m => m mod P) ms).
Proof.
  intros Hx Hm H. induction H as [|x xs e es m ms H1 H2 IH]; [reflexivity|]. apply Forall_cons_iff in Hx, Hm. destruct Hx as [Hx Hxs], Hm as [Hm Hms].
  cbn [cs_decrypt_loop map]. rewrite (cs_decrypt_one_open x u e m Hx Hm H1). cbn [bind]. rewrite (IH Hxs Hms). reflexivity.
Qed.
Lemma opens_all_length u xs es ms : cs_opens_all n s u xs es ms -> length xs = length es /\ length ms = length es.
Proof. intros H. induction H as [|x xs e es m ms H1 H2 [IH1 IH2]]; cbn; lia. Qed.
Lemma cs_decrypt_open u es ms : Forall (fun x => 0 <= x) (cs_xs sk) -> Forall (fun m => 0 <= m) ms -> cs_opens_all n s u (cs_xs sk) es ms ->
  cs_decrypt sk {| ct_u := u; ct_es := es |} = Ok (map (fun m => m mod P) ms).
Proof.
  intros Hx Hm H. unfold cs_decrypt. cbn [ct_es ct_u]. destruct (opens_all_length _ _ _ _ H) as [L _]. unfold cs_len. rewrite <- (x_len _ _ _ K), L, Nat.eqb_refl. cbn [negb].
  apply cs_decrypt_loop_open; assumption.
Qed.
Lemma cs_decrypt_total c : (1 <= s)%nat -> Forall (fun x => 0 <= x) (cs_xs sk) ->
  (exists ms, cs_decrypt sk c = Ok ms /\ Forall (fun m => 0 <= m < P) ms /\ cs_opens_all n s (ct_u c) (cs_xs sk) (ct_es c) ms) \/
  (cs_decrypt sk c = Err InvalidArgument /\ forall ms, Forall (fun m => 0 <= m) ms -> ~ cs_opens_all n s (ct_u c) (cs_xs sk) (ct_es c) ms).
Proof.
  intros Hs Hx. unfold cs_decrypt. unfold cs_len. rewrite <- (x_len _ _ _ K). destruct (Nat.eqb_spec (length (ct_es c)) (length (cs_xs sk))) as [E|E]; cbn [negb].
  - revert Hx E. generalize (cs_xs sk) as xs, (ct_es c) as es. induction xs as [|x xs IH]; intros [|e es] Hx E; cbn in E; try lia.
    + left. exists []. repeat split; constructor.
    + apply Forall_cons_iff in Hx. destruct Hx as [Hx Hxs]. cbn [cs_decrypt_loop].
      destruct (cs_decrypt_one_total x (ct_u c) e Hs Hx) as [(m & Bm & Om & Em)|[Em No]]; rewrite Em; cbn [bind].
      * destruct (IH es Hxs ltac:(lia)) as [(ms & Ems & Bms & Oms)|[Ems No]]; rewrite Ems; cbn [bind].
        -- left. exists (m :: ms). split; [reflexivity|]. split; constructor; assumption.
        -- right. split; [reflexivity|]. intros ms Hms H. inversion H as [|x0 xs0 e0 es0 m0 ms0 H1 H3]; subst. apply Forall_cons_iff in Hms. destruct Hms as [_ Hms]. exact (No _ Hms H3).
      * right. split; [reflexivity|]. intros ms Hms H. inversion H as [|x0 xs0 e0 es0 m0 ms0 H1 H3]; subst. apply Forall_cons_iff in Hms. destruct Hms as [Hm _]. exact (No _ Hm H1).
  - right. split; [reflexivity|]. intros ms _ H. apply opens_all_length in H. lia.
Qed.
Lemma opens_all_unique u xs es ms ms' : Forall (fun m => 0 <= m < P) ms -> Forall (fun m => 0 <= m < P) ms' ->
  cs_opens_all n s u xs es ms -> cs_opens_all n s u xs es ms' -> ms = ms'.
Proof.
  intros B B' H. revert ms' B'. induction H as [|x xs e es m ms H1 H2 IH]; intros ms' B' H'; inversion H'; subst; [reflexivity|].
  apply Forall_cons_iff in B, B'. destruct B, B'. f_equal; [eapply cs_opens_unique; eassumption|apply IH; assumption].
Qed.
End Decrypt.

(** ** Encryption *)

(** The public components belong to the secret exponents. *)
Definition key_match (n : Z) (s : nat) (g : Z) (xs ys : list Z) : Prop :=
  Forall2 (fun x y => 0 <= x /\ y = g ^ x mod n ^ (Z.of_nat s + 1)) xs ys.

Section Encrypt.
Variable flag : bool.
Variables (n : Z) (s : nat) (pk : cs_public).
Hypothesis W : cs_valid n s pk.
Hypothesis Hg : Z.gcd (cs_g pk) n = 1.
Let M := n ^ (Z.of_nat s + 1).
Let P := n ^ Z.of_nat s.

Lemma e_M : 1 < M.
Proof. pose proof (w_gt _ _ _ W). apply Z.pow_gt_1; lia. Qed.
Lemma e_P : 0 < P.
Proof. pose proof (w_gt _ _ _ W). apply Z.pow_pos_nonneg; lia. Qed.
Lemma e_odd : Z.odd M = true.
Proof. apply odd_pow; [lia|apply (w_odd _ _ _ W)]. Qed.
Lemma e_nM : (n | M).
Proof. exists (n ^ Z.of_nat s). unfold M. rewrite Z.pow_add_r, Z.pow_1_r by lia. ring. Qed.

Lemma noise_unit r x : 0 <= r -> 0 <= x -> Z.gcd ((cs_g pk ^ r mod M) ^ x) n = 1.
Proof.
  intros Hr Hx. apply gcd_pow_l; [exact Hx|]. apply (gcd_eqmod _ (cs_g pk ^ r)); [apply (eqmod_divide n M _ _ e_nM (eqmod_mod _ _))|]. apply gcd_pow_l; assumption.
Qed.
Lemma noise_eq r x : 0 <= r -> 0 <= x -> eqmod M ((cs_g pk ^ x mod M) ^ r) ((cs_g pk ^ r mod M) ^ x).
Proof.
  intros Hr Hx. rewrite !(eqmod_mod M). rewrite <- !Z.pow_mul_r by assumption. rewrite (Z.mul_comm x r). reflexivity.
Qed.

Lemma cs_encrypt_loop_ok r xs ys : 0 <= r -> key_match n s (cs_g pk) xs ys -> forall ms, (length ms <= length ys)%nat ->
  exists es, cs_encrypt_loop flag pk ys ms r = Ok es /\ Forall (fun e => 0 <= e < M) es /\
    cs_opens_all n s (cs_g pk ^ r mod M) xs es (padded n s (length ys) ms).
Proof.
  intros Hr H. pose proof e_M as HM. induction H as [|x y xs ys [Hx Ey] H IH]; intros ms Hl; [|fold M in Ey].
  - destruct ms; [|cbn in Hl; lia]. exists []. repeat split; constructor.
  - cbn [cs_encrypt_loop]. rewrite (w_mod _ _ _ W). fold M. rewrite (fixed_base_exp_ok flag y M r HM e_odd) by (try exact Hr; subst y; apply Z.mod_pos_bound; lia). cbn [bind].
    pose proof (noise_eq r x Hr Hx) as Ne. rewrite <- Ey in Ne.
    destruct ms as [|m ms].
    + destruct (IH [] ltac:(cbn; lia)) as (es & E & R & O1). rewrite E. cbn [bind]. eexists. split; [reflexivity|]. split; [constructor; [apply Z.mod_pos_bound; lia|exact R]|].
      unfold padded in *. cbn [app length Nat.sub] in *. rewrite Nat.sub_0_r in O1. cbn [repeat map]. constructor; [|exact O1].
      split; [apply noise_unit; assumption|]. apply eqmod_intro. fold M. rewrite (eqmod_mod M), Ne, Z.mod_0_l, Z.pow_0_r, Z.mul_1_r by (pose proof e_P; unfold P in *; lia). reflexivity.
    + destruct (binomial_expansion_ok n n s (cs_precomp pk) (w_gt _ _ _ W) (Z.divide_refl n) (w_pre _ _ _ W) (w_fact _ _ _ W) m) as (c & Ec & Hc).
      rewrite (w_pow _ _ _ W), Ec. cbn [bind]. rewrite bn_mod_ok by lia. cbn [bind]. cbn [length] in Hl. destruct (IH ms ltac:(lia)) as (es & E & R & O1). rewrite E. cbn [bind].
      eexists. split; [reflexivity|]. split; [constructor; [apply Z.mod_pos_bound; lia|exact R]|]. unfold padded in *. cbn [app length Nat.sub map]. constructor; [|exact O1].
      split; [apply noise_unit; assumption|]. apply eqmod_intro. fold M. fold M in Hc. rewrite (eqmod_mod M (y ^ r mod M * c)), (eqmod_mod M (y ^ r)), Ne, Hc. reflexivity.
Qed.

Lemma cs_encrypt_with_rand_ok xs ms r : key_match n s (cs_g pk) xs (cs_ys pk) -> (length ms <= cs_len pk)%nat -> 0 <= r -> r = 0 \/ Z.gcd r n = 1 ->
  exists c, cs_encrypt_with_rand flag pk ms r = Ok c /\ 0 <= ct_u c < M /\ Forall (fun e => 0 <= e < M) (ct_es c) /\
    cs_opens_all n s (ct_u c) xs (ct_es c) (padded n s (cs_len pk) ms).
Proof.
  intros Hk Hl Hr Hc. unfold cs_encrypt_with_rand. pose proof e_M as HM. unfold cs_len in *. destruct (Nat.ltb_spec (length (cs_ys pk)) (length ms)); [lia|].
  unfold is_non_negative, bn_gcd. destruct (Z.ltb_spec r 0); [lia|]. cbn [negb orb]. rewrite (w_n _ _ _ W).
  assert (B : negb (Z.gcd r n =? 1) && negb (r =? 0) = false).
  { destruct Hc as [-> | ->]; [rewrite andb_comm|]; rewrite Z.eqb_refl; reflexivity. }
  rewrite B. rewrite (w_mod _ _ _ W). fold M. rewrite fixed_base_exp_ok; [|exact HM|apply e_odd|apply (w_g _ _ _ W)|exact Hr]. cbn [bind].
  destruct (cs_encrypt_loop_ok r xs (cs_ys pk) Hr Hk ms Hl) as (es & E & R & O1). rewrite E. cbn [bind]. eexists. split; [reflexivity|]. cbn [ct_u ct_es].
  split; [apply Z.mod_pos_bound; lia|]. split; [exact R|exact O1].
Qed.

(** Rejected inputs. *)
Lemma cs_encrypt_with_rand_rejects ms r : (cs_len pk < length ms)%nat \/ r < 0 \/ (r <> 0 /\ Z.gcd r n <> 1) -> cs_encrypt_with_rand flag pk ms r = Err InvalidArgument.
Proof.
  intros H. unfold cs_encrypt_with_rand. unfold cs_len in H. destruct (Nat.ltb_spec (length (cs_ys pk)) (length ms)); [reflexivity|].
  unfold is_non_negative, bn_gcd. destruct (Z.ltb_spec r 0); [reflexivity|]. cbn [negb orb]. rewrite (w_n _ _ _ W).
  destruct (Z.eqb_spec (Z.gcd r n) 1); [lia|]. destruct (Z.eqb_spec r 0); [lia|]. reflexivity.
Qed.

Lemma cs_encrypt_get_inv xs ms raws c r : key_match n s (cs_g pk) xs (cs_ys pk) -> cs_encrypt_and_get_rand flag pk ms raws = Ok (c, r) ->
  0 <= r < n /\ Z.gcd r n = 1 /\ (length ms <= cs_len pk)%nat /\ Forall (fun m => 0 <= m) ms /\ cs_encrypt_with_rand flag pk ms r = Ok c.
Proof.
  intros Hk E. unfold cs_encrypt_and_get_rand in E. destruct (forallb is_non_negative ms) eqn:F; [|discriminate]. cbn [negb] in E.
  apply bind_ok in E. destruct E as (r' & Er & E). rewrite (w_n _ _ _ W) in Er. apply relprime_draw in Er; [|apply (w_gt _ _ _ W)]. destruct Er as [B G].
  destruct (le_lt_dec (length ms) (cs_len pk)) as [Hl|Hl].
  - apply bind_ok in E. destruct E as (c' & Ec & E). injection E as <- <-. split; [exact B|]. split; [exact G|]. split; [exact Hl|]. split; [|exact Ec].
    rewrite forallb_forall in F. apply Forall_forall. intros m Hm. specialize (F m Hm). unfold is_non_negative in F. destruct (Z.ltb_spec m 0); [discriminate|lia].
  - rewrite cs_encrypt_with_rand_rejects in E by (left; exact Hl). discriminate.
Qed.
Lemma cs_encrypt_get_ok xs ms raws : key_match n s (cs_g pk) xs (cs_ys pk) -> (length ms <= cs_len pk)%nat -> Forall (fun m => 0 <= m) ms ->
  (exists i, In i raws /\ Z.gcd (i mod n) n = 1) -> exists c r, cs_encrypt_and_get_rand flag pk ms raws = Ok (c, r).
Proof.
  intros Hk Hl Hm Hd. unfold cs_encrypt_and_get_rand.
  assert (F : forallb is_non_negative ms = true). { apply forallb_forall. intros m Hin. rewrite Forall_forall in Hm. specialize (Hm m Hin). unfold is_non_negative. destruct (Z.ltb_spec m 0); [lia|reflexivity]. }
  rewrite F. cbn [negb]. rewrite (w_n _ _ _ W). destruct (relprime_random_ok (fun _ => true) raws n (w_gt _ _ _ W) Hd) as (r & Er). rewrite Er. cbn [bind].
  apply relprime_draw in Er; [|apply (w_gt _ _ _ W)]. destruct Er as [B G].
  destruct (cs_encrypt_with_rand_ok xs ms r Hk Hl (proj1 B) (or_intror G)) as (c & Ec & _). rewrite Ec. cbn [bind]. eexists. eexists. reflexivity.
Qed.

(** ** Homomorphic operations *)

Fixpoint zip_add (a b : list Z) : list Z := match a, b with x :: a', y :: b' => (x + y) :: zip_add a' b' | _, _ => [] end.

Lemma opens_mul x u1 u2 e1 e2 m1 m2 : 0 <= x -> 0 <= m1 -> 0 <= m2 -> cs_opens n s x u1 e1 m1 -> cs_opens n s x u2 e2 m2 ->
  cs_opens n s x ((u1 * u2) mod M) ((e1 * e2) mod M) (m1 + m2).
Proof.
  intros Hx H1 H2 [G1 D1] [G2 D2]. change (eqmod M e1 (u1 ^ x * (1 + n) ^ m1)) in D1. change (eqmod M e2 (u2 ^ x * (1 + n) ^ m2)) in D2. split.
  - apply (gcd_eqmod _ (u1 ^ x * u2 ^ x)); [|apply gcd_mul_l; assumption]. apply (eqmod_divide n M _ _ e_nM). rewrite (eqmod_mod M), Z.pow_mul_l. reflexivity.
  - apply eqmod_intro. fold M. rewrite !(eqmod_mod M), D1, D2, Z.pow_mul_l, (Z.pow_add_r (1 + n) m1 m2) by assumption. exists 0. ring.
Qed.
Lemma opens_pow x u e m k : 0 <= x -> 0 <= m -> 0 <= k -> cs_opens n s x u e m -> cs_opens n s x (u ^ k mod M) (e ^ k mod M) (m * k).
Proof.
  intros Hx Hm Hk [G D]. change (eqmod M e (u ^ x * (1 + n) ^ m)) in D. assert (E : (u ^ k) ^ x = (u ^ x) ^ k) by (rewrite <- !Z.pow_mul_r by assumption; f_equal; ring). split.
  - apply (gcd_eqmod _ ((u ^ x) ^ k)); [|apply gcd_pow_l; assumption]. apply (eqmod_divide n M _ _ e_nM). rewrite (eqmod_mod M), E. reflexivity.
  - apply eqmod_intro. fold M. rewrite !(eqmod_mod M), D, E, Z.pow_mul_l, (Z.pow_mul_r (1 + n) m k) by assumption. reflexivity.
Qed.

Lemma cs_add_loop_ok u1 u2 xs a ms1 : cs_opens_all n s u1 xs a ms1 -> forall b ms2, cs_opens_all n s u2 xs b ms2 -> Forall (fun x => 0 <= x) xs ->
  Forall (fun m => 0 <= m) ms1 -> Forall (fun m => 0 <= m) ms2 ->
  exists es, cs_add_loop M a b = Ok es /\ cs_opens_all n s ((u1 * u2) mod M) xs es (zip_add ms1 ms2) /\ Forall (fun m => 0 <= m) (zip_add ms1 ms2).
Proof.
  intros H. pose proof e_M as HM. induction H as [|x xs e es m ms O1 H IH]; intros b ms2 H2 Hx Hm Hm2; inversion H2 as [|x0 xs0 e0 es0 m0 ms0 O2 H3]; subst; cbn [cs_add_loop zip_add].
  - exists []. repeat split; constructor.
  - apply Forall_cons_iff in Hx, Hm, Hm2. destruct Hx as [Hx Hxs], Hm as [Hm Hms], Hm2 as [Hm2 Hms2]. rewrite bn_mod_mul_ok by lia. cbn [bind].
    destruct (IH _ _ H3 Hxs Hms Hms2) as (r & E & O3 & F). rewrite E. cbn [bind]. eexists. split; [reflexivity|]. split; constructor; try assumption; [|lia]. apply opens_mul; assumption.
Qed.
Lemma cs_multiply_loop_ok k suf : 0 <= k -> forall pre, cs_multiply_loop (length suf) (length pre) M (pre ++ suf) k = Ok (map (fun e => e ^ k mod M) suf).
Proof.
  intros Hk. pose proof e_M as HM. induction suf as [|e suf IH]; intros pre; cbn [cs_multiply_loop length map]; [reflexivity|]. unfold vec_at. rewrite nth_error_app2 by lia. rewrite Nat.sub_diag. cbn [nth_error bind].
  rewrite bn_mod_exp_ok by lia. cbn [bind]. specialize (IH (pre ++ [e])). rewrite app_length, <- app_assoc in IH. cbn [length app] in IH. rewrite IH. reflexivity.
Qed.
Lemma cs_multiply_open u xs es ms k : 0 <= k -> cs_opens_all n s u xs es ms -> Forall (fun x => 0 <= x) xs -> Forall (fun m => 0 <= m) ms ->
  cs_opens_all n s (u ^ k mod M) xs (map (fun e => e ^ k mod M) es) (map (fun m => m * k) ms) /\ Forall (fun m => 0 <= m) (map (fun m => m * k) ms).
Proof.
  intros Hk H. induction H as [|x xs e es m ms O1 H IH]; intros Hx Hm; [split; constructor|]. apply Forall_cons_iff in Hx, Hm. destruct Hx as [Hx Hxs], Hm as [Hm Hms].
  destruct (IH Hxs Hms) as [A B]. cbn [map]. split; constructor; try assumption; [|apply Z.mul_nonneg_nonneg; assumption]. apply opens_pow; assumption.
Qed.
End Encrypt.

(** Evaluation of an expression with the public key's operations. *)
Fixpoint cs_eval (pk : cs_public) (env : nat -> cs_ciphertext) (e : cexpr) : outcome cs_ciphertext :=
  match e with
  | CLeaf i => Ok (env i)
  | CAdd a b => let* x := cs_eval pk env a in let* y := cs_eval pk env b in cs_add pk x y
  | CMul a k => let* x := cs_eval pk env a in cs_multiply pk x k
  end.
Fixpoint cexpr_values (env : nat -> list Z) (e : cexpr) : list Z :=
  match e with CLeaf i => env i | CAdd a b => zip_add (cexpr_values env a) (cexpr_values env b) | CMul a k => map (fun m => m * k) (cexpr_values env a) end.

Lemma zip_add_nth a : forall b j, length a = length b -> nth j (zip_add a b) 0 = nth j a 0 + nth j b 0.
Proof. induction a as [|x a IH]; intros [|y b] j E; cbn in E; try lia; [destruct j; reflexivity|]. destruct j; cbn [zip_add nth]; [reflexivity|]. apply IH. lia. Qed.
Lemma zip_add_length a : forall b, length a = length b -> length (zip_add a b) = length a.
Proof. induction a as [|x a IH]; intros [|y b] E; cbn in *; try lia. rewrite IH; lia. Qed.
Lemma cexpr_values_spec env len e : (forall i, length (env i) = len) -> length (cexpr_values env e) = len /\
  forall j, nth j (cexpr_values env e) 0 = cexpr_value (fun i => nth j (env i) 0) e.
Proof.
  intros H. induction e as [i|a [La Va] b [Lb Vb]|a [La Va] k]; cbn [cexpr_values cexpr_value].
  - split; [apply H|reflexivity].
  - split; [rewrite zip_add_length; congruence|]. intros j. rewrite zip_add_nth by congruence. rewrite Va, Vb. reflexivity.
  - split; [rewrite map_length; exact La|]. intros j. rewrite <- Va. apply (map_nth (fun m => m * k) (cexpr_values env a) 0 j).
Qed.
Lemma list_seq_nth (l : list Z) : l = map (fun j => nth j l 0) (seq 0 (length l)).
Proof.
  induction l as [|x l IH]; [reflexivity|]. cbn [length seq map nth]. f_equal. rewrite <- seq_shift, map_map. exact IH.
Qed.

Section Homo.
Variables (n : Z) (s : nat) (sk : cs_private) (pk : cs_public).
Hypothesis K : cs_priv_valid n s sk.
Hypothesis W : cs_valid n s pk.
Hypothesis Hlen : cs_len pk = cs_len (cs_pub sk).
Hypothesis Hx : Forall (fun x => 0 <= x) (cs_xs sk).
Let M := n ^ (Z.of_nat s + 1).

Lemma cs_eval_ok env vals e : (forall i, cs_opens_all n s (ct_u (env i)) (cs_xs sk) (ct_es (env i)) (vals i) /\ Forall (fun m => 0 <= m) (vals i)) -> cexpr_scalars_ok e ->
  exists c, cs_eval pk env e = Ok c /\ cs_opens_all n s (ct_u c) (cs_xs sk) (ct_es c) (cexpr_values vals e) /\ Forall (fun m => 0 <= m) (cexpr_values vals e).
Proof.
  intros H. pose proof (e_M n s pk W) as HM. fold M in HM. induction e as [i|a IHa b IHb|a IHa k]; cbn [cs_eval cexpr_values cexpr_scalars_ok].
  - intros _. exists (env i). split; [reflexivity|]. apply H.
  - intros [Sa Sb]. destruct (IHa Sa) as (x & Ex & Ox & Fx), (IHb Sb) as (y & Ey & Oy & Fy). rewrite Ex, Ey. cbn [bind]. unfold cs_add.
    destruct (opens_all_length _ _ _ _ _ _ Ox) as [L1 _], (opens_all_length _ _ _ _ _ _ Oy) as [L2 _].
    rewrite <- L1, <- L2, Nat.eqb_refl. rewrite Hlen. unfold cs_len. rewrite (x_len _ _ _ K), Nat.eqb_refl. cbn [negb]. rewrite (w_mod _ _ _ W). fold M. rewrite bn_mod_mul_ok by lia. cbn [bind].
    destruct (cs_add_loop_ok n s pk W _ _ _ _ _ Ox _ _ Oy Hx Fx Fy) as (es & E & O3 & F). fold M in E, O3. rewrite E. cbn [bind]. eexists. split; [reflexivity|]. split; [exact O3|exact F].
  - intros [Sa Sk]. destruct (IHa Sa) as (x & Ex & Ox & Fx). rewrite Ex. cbn [bind]. unfold cs_multiply. rewrite (w_mod _ _ _ W). fold M. rewrite bn_mod_exp_ok by lia. cbn [bind].
    destruct (opens_all_length _ _ _ _ _ _ Ox) as [L1 _]. pose proof (cs_multiply_loop_ok n s pk W k (ct_es x) Sk []) as E. cbn [length app] in E. fold M in E.
    rewrite Hlen. unfold cs_len. rewrite <- (x_len _ _ _ K), L1, E. cbn [bind]. eexists. split; [reflexivity|]. cbn [ct_u ct_es].
    apply cs_multiply_open; assumption.
Qed.
End Homo.

(** ** Generated keys *)

Lemma cs_key_loop_inv draws g n M xs ys : 1 < n -> 1 < M -> cs_key_loop draws g n M = Ok (xs, ys) ->
  length xs = length draws /\ Forall2 (fun x y => 0 <= x /\ y = g ^ x mod M) xs ys /\ Forall (fun x => 0 <= x < n /\ Z.gcd x n = 1) xs.
Proof.
  intros Hn HM. revert xs ys. induction draws as [|raws draws IH]; intros xs ys E; cbn [cs_key_loop] in E.
  - injection E as <- <-. repeat split; constructor.
  - apply bind_ok in E. destruct E as (x & Ex & E). apply relprime_draw in Ex; [|exact Hn]. destruct Ex as [B G]. rewrite bn_mod_exp_ok in E by lia. cbn [bind] in E.
    apply bind_ok in E. destruct E as ([xs' ys'] & Er & E). injection E as <- <-. destruct (IH _ _ Er) as (L & F & R). cbn [length]. split; [lia|]. split; constructor; try assumption; split; [lia|reflexivity|exact B|exact G].
Qed.
Lemma cs_generate_inv raws draws n s k : 1 < n -> cs_generate_key_base raws draws n s = Ok k ->
  let M := n ^ (Z.of_nat s + 1) in key_n k = n /\ key_s k = s /\ length (key_xs k) = length draws /\ 0 <= key_g k < M /\ Z.gcd (key_g k) n = 1 /\
  key_match n s (key_g k) (key_xs k) (key_ys k) /\ Forall (fun x => 0 <= x < n /\ Z.gcd x n = 1) (key_xs k) /\
  exists y, eqmod M (key_g k) (y ^ (2 * n ^ Z.of_nat s)).
Proof.
  intros Hn E M. assert (HM : 1 < M) by (apply Z.pow_gt_1; lia). unfold cs_generate_key_base in E. apply bind_ok in E. destruct E as (g & Eg & E).
  unfold cs_generator, bn_exp in Eg. apply bind_ok in Eg. destruct Eg as (y & Ey & Eg). unfold bn_exp in E. rewrite (Z.abs_eq (Z.of_nat s + 1)) in E, Ey, Eg by lia. rewrite (Z.abs_eq (Z.of_nat s)) in Eg by lia. fold M in E, Ey, Eg. apply relprime_draw in Ey; [|exact HM]. destruct Ey as [By Gy].
  assert (HP : 0 < n ^ Z.of_nat s) by (apply Z.pow_pos_nonneg; lia).
  rewrite bn_mod_exp_ok in Eg by lia. injection Eg as <-. apply bind_ok in E. destruct E as ([xs ys] & El & E). injection E as <-. cbn [key_n key_s key_g key_ys key_xs].
  destruct (cs_key_loop_inv _ _ _ _ _ _ Hn HM El) as (L & F & R). split; [reflexivity|]. split; [reflexivity|]. split; [exact L|]. split; [apply Z.mod_pos_bound; lia|].
  split; [|split; [exact F|split; [exact R|exists y; apply eqmod_mod]]].
  assert (nM : (n | M)). { exists (n ^ Z.of_nat s). unfold M. rewrite Z.pow_add_r, Z.pow_1_r by lia. ring. }
  apply (gcd_eqmod _ (y ^ (2 * n ^ Z.of_nat s))); [apply (eqmod_divide n M _ _ nM (eqmod_mod _ _))|]. apply gcd_pow_l; [lia|]. apply gcd_divide_r with M; assumption.
Qed.
Lemma key_match_range n s g xs ys : 1 < n -> key_match n s g xs ys -> Forall (fun x => 0 <= x) xs /\ Forall (fun y => 0 <= y < n ^ (Z.of_nat s + 1)) ys /\ length xs = length ys.
Proof.
  intros Hn H. assert (HM : 1 < n ^ (Z.of_nat s + 1)) by (apply Z.pow_gt_1; lia). induction H as [|x y xs ys [Hx ->] H (A & B & L)]; [repeat split; constructor|].
  split; [constructor; assumption|]. split; [constructor; [apply Z.mod_pos_bound; lia|exact B]|]. cbn [length]. lia.
Qed.

(** ** Protos *)

Lemma mapM_to_bytes xs : Forall (fun x => 0 <= x) xs -> exists bs, mapM to_bytes xs = Ok bs /\ map of_bytes bs = xs.
Proof.
  induction 1 as [|x xs Hx H IH]; cbn [mapM]; [exists []; split; reflexivity|]. destruct (to_bytes_of x Hx) as (b & E & Ev). rewrite E. cbn [bind].
  destruct IH as (bs & Es & Evs). rewrite Es. cbn [bind]. eexists. split; [reflexivity|]. cbn [map]. congruence.
Qed.
Lemma in_group_spec n M y : in_group n M y = true <-> 0 < y < M /\ Z.gcd y n = 1.
Proof.
  unfold in_group, bn_gcd. rewrite negb_true_iff, !orb_false_iff, negb_false_iff, Z.leb_gt, Z.leb_gt, Z.eqb_eq. tauto.
Qed.
