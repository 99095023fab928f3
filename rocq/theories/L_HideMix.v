(** Combining distances: independent blocks of draws, renamed draws and draws whose effect is periodic. *)
From Verif Require Import Base S_Hide S_HideMask L_Hide L_HideCom L_HideKey.

(** Sums over tuples. *)
Fixpoint zsums (bs : list Z) (f : list Z -> Z) : Z := match bs with [] => f [] | b :: bs' => zsum (Z.to_nat b) (fun d => zsums bs' (fun ds => f (d :: ds))) end.
Notation drawn := (Forall2 (fun b d => 0 <= d < b)).
Lemma zsums_ext bs f g : (forall ds, drawn bs ds -> f ds = g ds) -> zsums bs f = zsums bs g.
Proof.
  revert f g. induction bs as [|b bs IH]; intros f g H; cbn [zsums]; [apply H; constructor|]. apply zsum_ext. intros d Hd. apply IH. intros ds D. apply H. constructor; [lia|exact D].
Qed.
Lemma count_app A B t : count (A ++ B) t = zsums A (fun a => count B (fun ds => t (a ++ ds))).
Proof. revert t. induction A as [|b A IH]; intros t; [reflexivity|]. cbn [app count zsums]. apply zsum_ext. intros d Hd. rewrite IH. reflexivity. Qed.
Lemma zsums_sub bs f g : zsums bs f - zsums bs g = zsums bs (fun ds => f ds - g ds).
Proof. revert f g. induction bs as [|b bs IH]; intros f g; [reflexivity|]. cbn [zsums]. rewrite zsum_sub. apply zsum_ext. intros d _. apply IH. Qed.
Lemma zsums_add bs f g : zsums bs (fun ds => f ds + g ds) = zsums bs f + zsums bs g.
Proof. pose proof (zsums_sub bs (fun ds => f ds + g ds) g) as H. cbn beta in H. rewrite (zsums_ext bs (fun ds => f ds + g ds - g ds) f) in H by (intros; lia). lia. Qed.
Lemma zsums_scale bs c f : c * zsums bs f = zsums bs (fun ds => c * f ds).
Proof. revert f. induction bs as [|b bs IH]; intros f; [reflexivity|]. cbn [zsums]. rewrite zsum_scale. apply zsum_ext. intros d _. apply IH. Qed.
Lemma zsums_abs_le bs f g : (forall ds, drawn bs ds -> Z.abs (f ds) <= g ds) -> Z.abs (zsums bs f) <= zsums bs g.
Proof.
  revert f g. induction bs as [|b bs IH]; intros f g H; cbn [zsums]; [apply H; constructor|]. apply zsum_abs_le. intros d Hd. apply IH. intros ds D. apply H. constructor; [lia|exact D].
Qed.
Lemma zsums_le bs f g : (forall ds, drawn bs ds -> f ds <= g ds) -> zsums bs f <= zsums bs g.
Proof.
  revert f g. induction bs as [|b bs IH]; intros f g H; cbn [zsums]; [apply H; constructor|]. apply zsum_le. intros d Hd. apply IH. intros ds D. apply H. constructor; [lia|exact D].
Qed.
Lemma zsum_const n c : zsum n (fun _ => c) = Z.of_nat n * c.
Proof. induction n as [|n IH]; [reflexivity|]. cbn [zsum]. rewrite IH. lia. Qed.
Lemma zsums_const bs c : Forall (fun b => 0 <= b) bs -> zsums bs (fun _ => c) = tuples bs * c.
Proof.
  induction 1 as [|b bs Hb H IH]; cbn [zsums tuples fold_right]; [lia|]. fold (tuples bs). rewrite IH, zsum_const, Z2Nat.id by lia. ring.
Qed.
Lemma tuples_app A B : tuples (A ++ B) = tuples A * tuples B.
Proof. induction A as [|b A IH]; [cbn [app]; change (tuples []) with 1; lia|]. cbn [app tuples fold_right]. fold (tuples (A ++ B)). fold (tuples A). rewrite IH. ring. Qed.
Lemma drawn_len bs ds : drawn bs ds -> length ds = length bs.
Proof. induction 1; cbn [length]; lia. Qed.
Lemma drawn_app A B a d : drawn A a -> drawn B d -> drawn (A ++ B) (a ++ d).
Proof. intros H1 H2. apply Forall2_app; assumption. Qed.

(** A block of draws made first can be fixed. *)
Lemma but_inner {R} num k A B bad (f g : list Z -> R) : Forall (fun b => 0 <= b) A ->
  (forall a, drawn A a -> within_distance_but num k B (fun ds => bad (a ++ ds)) (fun ds => f (a ++ ds)) (fun ds => g (a ++ ds))) -> within_distance_but num k (A ++ B) bad f g.
Proof.
  intros NA H test. rewrite !count_app, zsums_sub, tuples_app.
  destruct (Z.le_gt_cases 0 k) as [Hk|Hk]; [|rewrite Z.pow_neg_r by exact Hk; rewrite !Z.mul_0_l].
  - assert (P : 0 < 2 ^ k) by (apply Z.pow_pos_nonneg; lia). rewrite <- (Z.abs_eq (2 ^ k)) at 1 by lia. rewrite <- Z.abs_mul, zsums_scale.
    etransitivity; [apply (zsums_abs_le A _ (fun a => num * tuples B + 2 ^ k * count B (fun ds => bad (a ++ ds))))|].
    + intros a Ha. cbn beta. rewrite Z.abs_mul, (Z.abs_eq (2 ^ k)) by lia. apply (H a Ha test).
    + rewrite (zsums_add A (fun _ => num * tuples B)), (zsums_const A (num * tuples B) NA), <- (zsums_scale A (2 ^ k) (fun a => count B (fun ds => bad (a ++ ds)))). apply Z.eq_le_incl. ring.
  - rewrite Z.add_0_r. replace (num * (tuples A * tuples B)) with (tuples A * (num * tuples B)) by ring. rewrite <- zsums_const by exact NA. transitivity (zsums A (fun _ => 0)).
    + rewrite zsums_const by exact NA. lia.
    + apply zsums_le. intros a Ha. specialize (H a Ha test). rewrite Z.pow_neg_r in H by exact Hk. lia.
Qed.
Lemma distance_inner {R} num k A B (f g : list Z -> R) : Forall (fun b => 0 <= b) A ->
  (forall a, drawn A a -> within_distance num k B (fun ds => f (a ++ ds)) (fun ds => g (a ++ ds))) -> within_distance num k (A ++ B) f g.
Proof.
  intros NA H test. pose proof (but_inner num k A B (fun _ => false) f g NA) as Q.
  assert (Z0 : forall bs, count bs (fun _ => false) = 0). { induction bs as [|b bs IH]; [reflexivity|]. cbn [count]. rewrite IH, zsum_const. lia. }
  specialize (Q ltac:(intros a Ha t; rewrite Z0, Z.mul_0_r, Z.add_0_r; apply (H a Ha t)) test). rewrite Z0 in Q. lia.
Qed.
Lemma distance_trans {R} n1 n2 k bs (f g h : list Z -> R) : within_distance n1 k bs f g -> within_distance n2 k bs g h -> within_distance (n1 + n2) k bs f h.
Proof.
  intros H1 H2 test. specialize (H1 test). specialize (H2 test). set (x := count bs _) in *. set (y := count bs (fun ds => test (g ds))) in *. set (z := count bs (fun ds => test (h ds))) in *.
  assert (Q : 2 ^ k * Z.abs (x - z) <= 2 ^ k * Z.abs (x - y) + 2 ^ k * Z.abs (y - z)); [|lia]. rewrite <- Z.mul_add_distr_l. apply Z.mul_le_mono_nonneg_l; [apply Z.pow_nonneg; lia|lia].
Qed.
Lemma distance_sym {R} num k bs (f g : list Z -> R) : within_distance num k bs f g -> within_distance num k bs g f.
Proof. intros H test. specialize (H test). rewrite <- Z.abs_opp. replace (- _) with (count bs (fun ds => test (f ds)) - count bs (fun ds => test (g ds))) by ring. exact H. Qed.
Lemma distance_apply {R S} num k bs (f g : list Z -> R) (h : R -> S) : within_distance num k bs f g -> within_distance num k bs (fun ds => h (f ds)) (fun ds => h (g ds)).
Proof. intros H test. apply (H (fun x => test (h x))). Qed.
Lemma but_apply {R S} num k bs bad (f g : list Z -> R) (h : R -> S) : within_distance_but num k bs bad f g -> within_distance_but num k bs bad (fun ds => h (f ds)) (fun ds => h (g ds)).
Proof. intros H test. apply (H (fun x => test (h x))). Qed.
Lemma but_then {R} n1 n2 k bs bad (f g h : list Z -> R) : within_distance_but n1 k bs bad f g -> within_distance n2 k bs g h -> within_distance_but (n1 + n2) k bs bad f h.
Proof.
  intros H1 H2 test. specialize (H1 test). specialize (H2 test). set (x := count bs (fun ds => test (f ds))) in *. set (y := count bs (fun ds => test (g ds))) in *. set (z := count bs (fun ds => test (h ds))) in *.
  assert (Q : 2 ^ k * Z.abs (x - z) <= 2 ^ k * Z.abs (x - y) + 2 ^ k * Z.abs (y - z)); [|lia]. rewrite <- Z.mul_add_distr_l. apply Z.mul_le_mono_nonneg_l; [apply Z.pow_nonneg; lia|lia].
Qed.

(** Renaming some of the draws by bijections changes no count. *)
Fixpoint renames (ss : list (Z -> Z)) (ds : list Z) : list Z := match ss, ds with s :: ss', d :: ds' => s d :: renames ss' ds' | _, _ => ds end.
Definition bijects (b : Z) (s : Z -> Z) : Prop := (forall d, 0 <= d < b -> 0 <= s d < b) /\ (forall d e, 0 <= d < b -> 0 <= e < b -> s d = s e -> d = e).
Lemma count_renames A B ss t : Forall2 bijects A ss -> count (A ++ B) (fun ds => t (renames ss ds)) = count (A ++ B) t.
Proof.
  intros H. revert t. induction H as [|b s A ss [H1 H2] H IH]; intros t; [apply count_ext; intros [|d ds] _ _; reflexivity|]. cbn [app count renames].
  destruct (Z.le_gt_cases b 0) as [Hb|Hb]; [replace (Z.to_nat b) with O by lia; reflexivity|].
  transitivity (zsum (Z.to_nat b) (fun d => (fun x => count (A ++ B) (fun ds => t (x :: ds))) (s d))); [apply zsum_ext; intros d _; apply (IH (fun ds => t (s d :: ds)))|].
  exact (zsum_rename (Z.to_nat b) (fun x => count (A ++ B) (fun ds => t (x :: ds))) s ltac:(intros d Hd; rewrite Z2Nat.id in * by lia; apply H1; exact Hd) ltac:(intros d e Hd He; rewrite Z2Nat.id in Hd, He by lia; apply H2; assumption)).
Qed.
Lemma renames_len ss ds : length (renames ss ds) = length ds.
Proof. revert ds. induction ss as [|s ss IH]; intros [|d ds]; cbn [renames length]; try reflexivity. rewrite IH. reflexivity. Qed.
Lemma renames_app ss a ds : length ss = length a -> renames ss (a ++ ds) = renames ss a ++ ds.
Proof. revert a. induction ss as [|s ss IH]; intros [|x a] H; cbn [length] in H; try lia; cbn [app renames]; [reflexivity|]. rewrite IH by lia. reflexivity. Qed.
Lemma shift_app ws a vs d : length ws = length a -> shift (ws ++ vs) (a ++ d) = shift ws a ++ shift vs d.
Proof. revert a. induction ws as [|w ws IH]; intros [|x a] H; cbn [length] in H; try lia; cbn [app shift]; [reflexivity|]. rewrite IH by lia. reflexivity. Qed.
Lemma shift_zeros k ds : shift (repeat 0 k) ds = ds.
Proof. revert ds. induction k as [|k IH]; intros [|d ds]; cbn [repeat shift]; try reflexivity. rewrite IH. f_equal. lia. Qed.

(** Draws whose effect is periodic absorb every amount that is added to them, up to the incomplete last period. *)
Section PeriodicBound.
Variable f : Z -> Z.
Variable E : nat.
Variable M : Z.
Hypothesis Hper : forall d, 0 <= d -> f (d + Z.of_nat E) = f d.
Hypothesis Hrange : forall d, 0 <= d -> 0 <= f d <= M.
Lemma periodic_shift_by k s w : Z.abs (zsum (k * E + s) (fun d => f (d + Z.of_nat w)) - zsum (k * E + s) f) <= Z.of_nat s * M.
Proof.
  rewrite 2 zsum_add, (windows f E Hper). pose proof (windows f E Hper k 0) as W0.
  assert (W1 : zsum (k * E) (fun d => f (d + Z.of_nat 0)) = zsum (k * E) f) by (apply zsum_ext; intros; f_equal; cbn [Z.of_nat]; lia).
  pose proof (zsum_bound s (fun d => f (d + Z.of_nat (k * E) + Z.of_nat w)) M (fun d Hd => Hrange (d + Z.of_nat (k * E) + Z.of_nat w) ltac:(lia))).
  pose proof (zsum_bound s (fun d => f (d + Z.of_nat (k * E))) M (fun d Hd => Hrange (d + Z.of_nat (k * E)) ltac:(lia))). cbn beta in *. lia.
Qed.
End PeriodicBound.
Definition every_period (E : Z) (l : list Z) : list Z := map (fun x => x mod E) l.
Lemma periodic_close {R} k u E b l ws (F : list Z -> R) : 0 <= k -> nearly_periods k u E b -> length ws = l -> Forall (fun w => 0 <= w) ws ->
  (forall ds, F ds = F (every_period E ds)) -> within_distance (Z.of_nat l * u) k (repeat b l) (fun ds => F (shift ws ds)) F.
Proof.
  intros Hk (HE & Hu & Hb & Hr) Hl Hw HF test. assert (P : 0 < 2 ^ k) by (apply Z.pow_pos_nonneg; lia).
  assert (G : forall t : list Z -> bool, (forall ds, t ds = t (every_period E ds)) ->
     2 ^ k * Z.abs (count (repeat b l) (fun ds => t (shift ws ds)) - count (repeat b l) t) <= Z.of_nat l * u * tuples (repeat b l)).
  { clear F test R HF. revert l Hl. induction Hw as [|w ws Hw0 Hw IH]; intros l Hl t Ht; cbn [length] in Hl; subst l; [cbn [repeat count shift]; destruct (t []); cbn; lia|].
    assert (N : Forall (fun b => 0 <= b) (repeat b (length ws))) by (apply Forall_forall; intros x Hx; apply repeat_spec in Hx; lia).
    pose proof (tuples_nonneg _ N) as HT. cbn [length repeat count tuples fold_right]. fold (tuples (repeat b (length ws))). set (T := tuples (repeat b (length ws))) in *. set (n := Z.to_nat b).
    set (a := zsum n (fun d => count (repeat b (length ws)) (fun ds => t (shift (w :: ws) (d :: ds))))). set (c := zsum n (fun d => count (repeat b (length ws)) (fun ds => t (d :: ds)))).
    set (mid := zsum n (fun d => count (repeat b (length ws)) (fun ds => t (d + w :: ds)))).
    assert (A1 : 2 ^ k * Z.abs (a - mid) <= b * (Z.of_nat (length ws) * u * T)).
    { unfold a, mid. rewrite zsum_sub. rewrite <- (Z.abs_eq (2 ^ k)), <- Z.abs_mul, zsum_scale by lia. replace (b * (Z.of_nat (length ws) * u * T)) with (Z.of_nat n * (Z.of_nat (length ws) * u * T)) by (unfold n; rewrite Z2Nat.id by exact Hb; reflexivity). apply zsum_abs. intros d Hd. rewrite Z.abs_mul, (Z.abs_eq (2 ^ k)) by lia.
      cbn [shift]. apply (IH (length ws) eq_refl (fun ds => t (d + w :: ds))). intros ds. rewrite Ht, (Ht (d + w :: every_period E ds)). unfold every_period. cbn [map]. rewrite map_map. do 2 f_equal. apply map_ext. intros x. symmetry. apply Z.mod_mod. lia. }
    assert (A2 : Z.abs (mid - c) <= (b mod E) * T).
    { set (f := fun d => count (repeat b (length ws)) (fun ds => t (d :: ds))).
      pose proof (periodic_shift_by f (Z.to_nat E) T) as Q. specialize (Q ltac:(intros d Hd; unfold f; apply count_ext; intros ds _ _; rewrite Ht, (Ht (d :: ds)); unfold every_period; cbn [map]; rewrite Z2Nat.id by lia; replace (d + E) with (d + 1 * E) by lia; rewrite Z_mod_plus_full; reflexivity)).
      specialize (Q ltac:(intros d Hd; apply count_bound; exact N) (Z.to_nat (b / E)) (Z.to_nat (b mod E)) (Z.to_nat w)).
      pose proof (Z.mod_pos_bound b E HE) as Bm. pose proof (Z.div_pos b E Hb HE) as Bd.
      replace (Z.to_nat (b / E) * Z.to_nat E + Z.to_nat (b mod E))%nat with n in Q.
      2: { unfold n. rewrite <- Z2Nat.inj_mul, <- Z2Nat.inj_add by nia. f_equal. rewrite (Z.mul_comm (b / E)). apply Z.div_mod. lia. }
      rewrite !Z2Nat.id in Q by lia. exact Q. }
    assert (A3 : Z.abs (a - c) <= Z.abs (a - mid) + Z.abs (mid - c)) by lia. assert (A4 : 2 ^ k * Z.abs (mid - c) <= u * b * T).
    { transitivity (2 ^ k * (b mod E * T)); [apply Z.mul_le_mono_nonneg_l; lia|]. replace (2 ^ k * (b mod E * T)) with (b mod E * 2 ^ k * T) by ring. apply Z.mul_le_mono_nonneg_r; lia. }
    transitivity (2 ^ k * Z.abs (a - mid) + 2 ^ k * Z.abs (mid - c)); [rewrite <- Z.mul_add_distr_l; apply Z.mul_le_mono_nonneg_l; lia|]. rewrite Nat2Z.inj_succ. transitivity (b * (Z.of_nat (length ws) * u * T) + u * b * T); [lia|]. apply Z.eq_le_incl. ring. }
  apply (G (fun ds => test (F ds))). intros ds. rewrite (HF ds) at 1. reflexivity.
Qed.
