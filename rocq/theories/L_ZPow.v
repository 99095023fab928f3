(** Lemmas about powers with integer exponents modulo N: a negative exponent is replaced by its residue modulo a full turn (L_Cheat). *)
From Coq Require Import Znumtheory Morphisms.
From Verif Require Import Base L_Mod L_NT L_DJ L_Exp S_Exp S_Pedersen L_Pedersen L_VRF L_BBct L_BBhom L_BBped L_Cheat M_BB M_Pedersen.

Section Zp.
Variables (N T : Z).
Hypothesis HN : 1 < N.
Hypothesis HT : 0 < T.
Hypothesis F : full N T.

Definition zp (x e : Z) : Z := x ^ (e mod T).
Fixpoint zm (bs es : list Z) : Z := match bs, es with b :: bs', e :: es' => zp b e * zm bs' es' | _, _ => 1 end.

Lemma zp_eqmod x x' e : eqmod N x x' -> eqmod N (zp x e) (zp x' e).
Proof. intros E. apply eqmod_pow. exact E. Qed.
Instance zp_proper : Proper (eqmod N ==> eq ==> eqmod N) zp.
Proof. intros x x' E e e' <-. apply zp_eqmod. exact E. Qed.
Lemma zp_unit x e : Z.gcd x N = 1 -> Z.gcd (zp x e) N = 1.
Proof. intros G. apply coprime_pow_gcd; [apply Z.mod_pos_bound; exact HT|exact G]. Qed.
Lemma turns x k : 0 <= k -> Z.gcd x N = 1 -> eqmod N (x ^ (T * k)) 1.
Proof. intros Hk G. rewrite Z.pow_mul_r by lia. rewrite (eqmod_pow N _ 1 k (F x G)). rewrite Z.pow_1_l by exact Hk. reflexivity. Qed.
Lemma zp_pos x e : Z.gcd x N = 1 -> 0 <= e -> eqmod N (zp x e) (x ^ e).
Proof.
  intros G He. unfold zp. pose proof (Z.mod_pos_bound e T HT) as B. pose proof (Z.div_pos e T He HT) as Q. rewrite (Z.div_mod e T) at 2 by lia.
  rewrite Z.pow_add_r; [|apply Z.mul_nonneg_nonneg; lia|lia]. rewrite turns by assumption. rewrite Z.mul_1_l. reflexivity.
Qed.
Lemma zp_turn x e e' : e mod T = e' mod T -> zp x e = zp x e'.
Proof. intros E. unfold zp. rewrite E. reflexivity. Qed.
Lemma zp_add x a c : Z.gcd x N = 1 -> eqmod N (zp x (a + c)) (zp x a * zp x c).
Proof.
  intros G. pose proof (Z.mod_pos_bound a T HT). pose proof (Z.mod_pos_bound c T HT). rewrite (zp_turn x (a + c) (a mod T + c mod T)) by (rewrite <- Z.add_mod by lia; reflexivity).
  rewrite zp_pos by (try assumption; lia). unfold zp. rewrite Z.pow_add_r by lia. reflexivity.
Qed.
Lemma zp_mul x a c : Z.gcd x N = 1 -> eqmod N (zp (zp x a) c) (zp x (a * c)).
Proof.
  intros G. pose proof (Z.mod_pos_bound a T HT). pose proof (Z.mod_pos_bound c T HT). rewrite (zp_turn x (a * c) ((a mod T) * (c mod T))) by (rewrite <- Z.mul_mod by lia; reflexivity).
  rewrite (zp_pos x (a mod T * (c mod T))) by (try assumption; apply Z.mul_nonneg_nonneg; lia). unfold zp. rewrite <- Z.pow_mul_r by lia. reflexivity.
Qed.
Lemma zp_base x x' e : zp (x * x') e = zp x e * zp x' e.
Proof. apply Z.pow_mul_l. Qed.
Lemma zp_one e : zp 1 e = 1. Proof. apply Z.pow_1_l. apply Z.mod_pos_bound. exact HT. Qed.
Lemma zp_zero x : zp x 0 = 1. Proof. unfold zp. rewrite Zmod_0_l. reflexivity. Qed.
Lemma zp_opp x e : Z.gcd x N = 1 -> eqmod N (zp x e * zp x (- e)) 1.
Proof. intros G. rewrite <- zp_add by exact G. rewrite Z.add_opp_diag_r, zp_zero. reflexivity. Qed.
(** Moving a factor to the other side. *)
Lemma zp_move x a c y : Z.gcd x N = 1 -> Z.gcd y N = 1 -> eqmod N (y * x ^ c) (x ^ a) -> 0 <= a -> 0 <= c -> eqmod N y (zp x (a - c)).
Proof.
  intros G Gy E Ha Hc. apply (eqmod_cancel N (x ^ c)); [apply coprime_pow_gcd; assumption|]. rewrite Z.mul_comm, E. rewrite <- !(zp_pos x) by assumption. rewrite <- zp_add by exact G.
  replace (c + (a - c)) with a by lia. reflexivity.
Qed.

Notation U := (Forall (fun g => Z.gcd g N = 1)).
Lemma zm_unit gs : U gs -> forall es, Z.gcd (zm gs es) N = 1.
Proof. induction 1 as [|g gs G _ IH]; intros [|e es]; cbn [zm]; try apply Z.gcd_1_l. apply gcd_mul_l; [apply zp_unit; exact G|apply IH]. Qed.
Lemma zm_pos gs : U gs -> forall es, nonneg es -> eqmod N (zm gs es) (multi_exp gs es).
Proof. induction 1 as [|g gs G _ IH]; intros [|e es] He; cbn [zm multi_exp]; try reflexivity. inversion He; subst. rewrite IH, zp_pos by assumption. reflexivity. Qed.
Lemma zm_add gs : U gs -> forall a c, length a = length c -> eqmod N (zm gs (map2 Z.add a c)) (zm gs a * zm gs c).
Proof.
  induction 1 as [|g gs G _ IH]; intros [|a la] [|c lc] Hl; cbn [map2 zm length] in *; try reflexivity; try lia. rewrite IH by lia. rewrite zp_add by exact G. exists 0. ring.
Qed.
Lemma zm_scale gs : U gs -> forall es c, eqmod N (zm gs (map (Z.mul c) es)) (zp (zm gs es) c).
Proof.
  induction 1 as [|g gs G _ IH]; intros [|e es] c; cbn [map zm]; rewrite ?zp_one; try reflexivity. rewrite IH, zp_base, zp_mul by exact G. rewrite (Z.mul_comm e c). reflexivity.
Qed.
Lemma zm_eqmod gs hs : Forall2 (eqmod N) gs hs -> forall es, eqmod N (zm gs es) (zm hs es).
Proof. induction 1 as [|g h gs hs E _ IH]; intros [|e es]; cbn [zm]; try reflexivity. rewrite IH, (zp_eqmod g h e E). reflexivity. Qed.
Lemma zm_map_zp gs : U gs -> forall es c, eqmod N (zm (map (fun x => zp x c) gs) es) (zp (zm gs es) c).
Proof.
  induction 1 as [|g gs G _ IH]; intros [|e es] c; cbn [map zm]; rewrite ?zp_one; try reflexivity. rewrite IH, zp_base, !zp_mul by exact G. rewrite (Z.mul_comm c e). reflexivity.
Qed.

(** ** Commitments *)
Variables (gs : list Z) (h : Z).
Hypothesis Ug : U gs.
Hypothesis Uh : Z.gcd h N = 1.
Definition zcom (w : list Z) (o : Z) : Z := zm gs w * zp h o.
Lemma zcom_unit w o : Z.gcd (zcom w o) N = 1. Proof. apply gcd_mul_l; [apply zm_unit; exact Ug|apply zp_unit; exact Uh]. Qed.
Lemma zcom_pos w o : nonneg w -> 0 <= o -> eqmod N (zcom w o) (commitment gs h N w o).
Proof. intros Hw Ho. unfold zcom, commitment. rewrite (eqmod_mod N), zm_pos, zp_pos by assumption. reflexivity. Qed.
Lemma zcom_add w o w' o' : length w = length w' -> eqmod N (zcom (map2 Z.add w w') (o + o')) (zcom w o * zcom w' o').
Proof. intros Hl. unfold zcom. rewrite zm_add, zp_add by assumption. exists 0. ring. Qed.
Lemma zcom_scale c w o : eqmod N (zcom (map (Z.mul c) w) (c * o)) (zp (zcom w o) c).
Proof. unfold zcom. rewrite zm_scale by exact Ug. rewrite zp_base, zp_mul by exact Uh. rewrite (Z.mul_comm o c). reflexivity. Qed.
Lemma map2_sub_opp a : forall c, map2 Z.sub a c = map2 Z.add a (map (Z.mul (-1)) c).
Proof. induction a as [|x a IH]; intros [|y c]; cbn [map2 map]; try reflexivity. rewrite IH. f_equal; ring. Qed.
Lemma zcom_sub w o w' o' : length w = length w' -> eqmod N (zcom (map2 Z.sub w w') (o - o') * zcom w' o') (zcom w o).
Proof.
  intros Hl. rewrite map2_sub_opp. replace (o - o') with (o + -1 * o') by ring. rewrite zcom_add by (rewrite map_length; exact Hl). rewrite zcom_scale.
  transitivity (zcom w o * (zp (zcom w' o') (-1) * zcom w' o')); [exists 0; ring|]. assert (G : Z.gcd (zcom w' o') N = 1) by apply zcom_unit.
  set (X := zcom w' o') in *. assert (E1 : eqmod N (zp X (-1) * X) (zp X (-1) * zp X 1)) by (rewrite (zp_pos X 1) by (try assumption; lia); rewrite Z.pow_1_r; reflexivity).
  rewrite E1. rewrite <- zp_add by exact G. change (-1 + 1) with 0. rewrite zp_zero, Z.mul_1_r. reflexivity.
Qed.
(** Equal commitments: the difference is a commitment to 1. *)
Lemma zcom_equal w o w' o' : length w = length w' -> eqmod N (zcom w o) (zcom w' o') -> eqmod N (zcom (map2 Z.sub w w') (o - o')) 1.
Proof.
  intros Hl E. apply (eqmod_cancel N (zcom w' o')); [apply zcom_unit|]. rewrite Z.mul_1_r, Z.mul_comm, zcom_sub by exact Hl. exact E.
Qed.
Lemma zcom_split w o : eqmod N (zcom w o) 1 -> eqmod N (zcom (map (Z.max 0) w) (Z.max 0 o)) (zcom (map (fun x => Z.max 0 (- x)) w) (Z.max 0 (- o))).
Proof.
  intros E. set (p := map (Z.max 0) w). set (m := map (fun x => Z.max 0 (- x)) w).
  assert (Ew : map2 Z.sub p m = w). { unfold p, m. clear. induction w as [|x w IH]; cbn [map map2]; [reflexivity|]. rewrite IH. f_equal. lia. }
  assert (Eo : Z.max 0 o - Z.max 0 (- o) = o) by lia. rewrite <- (zcom_sub p (Z.max 0 o) m (Z.max 0 (- o))) by (unfold p, m; rewrite !map_length; reflexivity).
  rewrite Ew, Eo, E, Z.mul_1_l. reflexivity.
Qed.
(** ** Two answers with the same first message *)
Lemma two_quotients d Y X1 X2 c1 c2 : Z.gcd Y N = 1 -> 0 <= c1 -> 0 <= c2 -> eqmod N (d * Y ^ c1) X1 -> eqmod N (d * Y ^ c2) X2 -> eqmod N (zp Y (c1 - c2) * X2) X1.
Proof.
  intros G H1 H2 E1 E2. rewrite <- E1, <- E2. rewrite <- (zp_pos Y c1), <- (zp_pos Y c2) by assumption. replace c1 with ((c1 - c2) + c2) at 2 by ring. rewrite zp_add by exact G. exists 0. ring.
Qed.
Lemma two_commitments d Y w1 o1 w2 o2 c1 c2 : Z.gcd Y N = 1 -> 0 <= c1 -> 0 <= c2 -> length w1 = length w2 ->
  eqmod N (d * Y ^ c1) (zcom w1 o1) -> eqmod N (d * Y ^ c2) (zcom w2 o2) -> eqmod N (zp Y (c1 - c2)) (zcom (map2 Z.sub w1 w2) (o1 - o2)).
Proof.
  intros G H1 H2 Hl E1 E2. apply (eqmod_cancel N (zcom w2 o2)); [apply zcom_unit|]. rewrite Z.mul_comm, (two_quotients d Y _ _ c1 c2 G H1 H2 E1 E2). rewrite Z.mul_comm, zcom_sub by exact Hl. reflexivity.
Qed.
Lemma zm_turn bs : forall es es', Forall2 (fun a c => a mod T = c mod T) es es' -> zm bs es = zm bs es'.
Proof. induction bs as [|x bs IH]; intros es es' H; destruct H as [|a c es es' E H]; cbn [zm]; try reflexivity. rewrite (IH _ _ H), (zp_turn x a c E). reflexivity. Qed.
Lemma zm_mod bs : forall es, zm bs es = multi_exp bs (map (fun e => e mod T) es).
Proof. induction bs as [|x bs IH]; intros [|e es]; cbn [zm multi_exp map]; try reflexivity. rewrite IH. reflexivity. Qed.

Notation pq := {| pp_gs := gs; pp_h := h; pp_n := N |}.
Lemma zcom_mod w o : zcom w o = raw_commit pq (map (fun e => e mod T) w) (o mod T).
Proof. unfold zcom, raw_commit. cbn [pp_gs pp_h]. rewrite zm_mod. reflexivity. Qed.
Lemma slot_mod i a : map (fun e => e mod T) (slot (length gs) i a) = slot (length gs) i (a mod T).
Proof. unfold slot. rewrite map_map. apply map_ext. intros j. destruct (j =? i)%nat; [reflexivity|apply Zmod_0_l]. Qed.
Lemma mods_nonneg l : nonneg (map (fun e => e mod T) l).
Proof. apply Forall_forall. intros x Hx. apply in_map_iff in Hx. destruct Hx as (e & <- & _). apply Z.mod_pos_bound. exact HT. Qed.
Lemma nth_mods l i : nth i (map (fun e => e mod T) l) 0 = nth i l 0 mod T.
Proof. rewrite <- (map_nth (fun e => e mod T)). rewrite Zmod_0_l. reflexivity. Qed.
Lemma mul_mods : forall es as_, Forall2 (fun a c => a mod T = c mod T) (map2 Z.mul (map (fun e => e mod T) es) (map (fun e => e mod T) as_)) (map2 Z.mul es as_).
Proof. induction es as [|e es IH]; intros [|a as_]; cbn [map map2]; constructor; [|apply IH]. rewrite <- Z.mul_mod by lia. reflexivity. Qed.
Lemma dot_sum : forall os es acc, dot acc os es = acc + fold_right Z.add 0 (map2 Z.mul os es).
Proof. induction os as [|o os IH]; intros [|e es] acc; cbn [dot map2 fold_right]; try lia. rewrite IH. lia. Qed.
Lemma sum_mods l l' : Forall2 (fun a c => a mod T = c mod T) l l' -> fold_right Z.add 0 l mod T = fold_right Z.add 0 l' mod T.
Proof. induction 1 as [|a c l l' E _ IH]; [reflexivity|]. cbn [fold_right]. rewrite (Z.add_mod a), (Z.add_mod c), E, IH by lia. reflexivity. Qed.
(** The product of commitments in single slots, with integer exponents. *)
Lemma zm_slots as_ os es k : length as_ = k -> length os = k -> length es = k -> (k <= length gs)%nat ->
  eqmod N (zm (tab k (fun i => zcom (slot (length gs) i (nth i as_ 0)) (nth i os 0))) es) (zcom (map2 Z.mul es as_) (fold_right Z.add 0 (map2 Z.mul os es))).
Proof.
  intros La Lo Le Hk. set (md := map (fun e => e mod T)). rewrite zm_mod. fold md.
  rewrite (tab_ext k _ (fun i => raw_commit pq (slot (length (pp_gs pq)) i (nth i (md as_) 0)) (nth i (md os) 0))).
  2:{ intros i _. rewrite zcom_mod. unfold md. rewrite !nth_mods. cbn [pp_gs]. rewrite slot_mod. reflexivity. }
  assert (Ml : forall l, length (md l) = length l) by (intros; apply map_length).
  rewrite (slots_product pq (md as_) (md os) (md es) k) by (first [rewrite Ml; assumption|exact Hk|apply mods_nonneg]).
  set (w := map2 Z.mul (md es) (md as_)). set (o := dot 0 (md os) (md es)).
  assert (Nw : nonneg w). { apply nonneg_map2; [apply Z.mul_nonneg_nonneg|apply mods_nonneg|apply mods_nonneg]. }
  assert (No : 0 <= o) by (apply dot_nonneg; apply mods_nonneg).
  assert (E1 : eqmod N (raw_commit pq w o) (zcom w o)) by (rewrite zcom_pos by assumption; unfold commitment; rewrite (eqmod_mod N); reflexivity).
  rewrite E1. unfold zcom. rewrite (zm_turn gs w (map2 Z.mul es as_) (mul_mods es as_)). rewrite (zp_turn h o (fold_right Z.add 0 (map2 Z.mul os es))); [reflexivity|].
  unfold o. rewrite dot_sum, Z.add_0_l. apply sum_mods, mul_mods.
Qed.
Lemma map2_mul_comm : forall a c, map2 Z.mul a c = map2 Z.mul c a.
Proof. induction a as [|x a IH]; intros [|z c]; cbn [map2]; try reflexivity. rewrite IH, Z.mul_comm. reflexivity. Qed.
(** A commitment that is opened in two ways: as a list and as a product of single commitments. *)
Lemma product_pair cal D al al1 al2 cas as_ os es k : Z.gcd cal N = 1 -> length as_ = k -> length os = k -> length es = k -> length al = k -> length cas = k -> (k <= length gs)%nat ->
  Forall (fun c => Z.gcd c N = 1) cas -> (forall i, (i < k)%nat -> eqmod N (zp (nth i cas 0) D) (zcom (slot (length gs) i (nth i as_ 0)) (nth i os 0))) ->
  eqmod N (zp cal D) (zcom al al1) -> eqmod N (zp cal D) (zp h al2 * zm cas es) ->
  eqmod N (zcom (map2 Z.sub (map (Z.mul D) al) (map2 Z.mul as_ es)) (D * al1 - (fold_right Z.add 0 (map2 Z.mul os es) + D * al2))) 1.
Proof.
  intros Gc La Lo Le Ll Lc Hk Uc Ha EA EB. apply zcom_equal; [rewrite map_length, map2_len by lia; lia|].
  rewrite zcom_scale, <- EA, EB. rewrite zp_base, zp_mul by exact Uh. rewrite <- zm_map_zp by exact Uc.
  assert (F2 : Forall2 (eqmod N) (map (fun x => zp x D) cas) (tab k (fun i => zcom (slot (length gs) i (nth i as_ 0)) (nth i os 0)))).
  { rewrite (tab_of cas), map_tab, Lc. unfold tab. assert (In' : forall i, In i (seq 0 k) -> (i < k)%nat) by (intros i Hi; apply in_seq in Hi; lia).
    revert In'. generalize (seq 0 k) as js. induction js as [|j js IH]; intros In'; cbn [map]; constructor.
    - specialize (Ha j (In' j (or_introl eq_refl))). exact Ha.
    - apply IH. intros i Hi. apply In'. right. exact Hi. }
  rewrite (zm_eqmod _ _ F2 es), zm_slots by assumption. rewrite (map2_mul_comm es as_). unfold zcom. rewrite zp_add by exact Uh. rewrite (Z.mul_comm al2 D). exists 0. ring.
Qed.
End Zp.
