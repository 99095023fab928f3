(** Sums of a periodic function over an interval hardly depend on where the interval begins. *)
From Verif Require Import Base S_Hide L_Hide.

Lemma zsum_add a b f : zsum (a + b) f = zsum a f + zsum b (fun d => f (d + Z.of_nat a)).
Proof.
  induction b as [|b IH]; [rewrite Nat.add_0_r; cbn [zsum]; lia|]. rewrite Nat.add_succ_r. cbn [zsum]. rewrite IH.
  replace (Z.of_nat (a + b)) with (Z.of_nat b + Z.of_nat a) by lia. lia.
Qed.
Section Periodic.
Variable f : Z -> Z.
Variable E : nat.
Hypothesis Hper : forall d, 0 <= d -> f (d + Z.of_nat E) = f d.
Hypothesis Hrange : forall d, 0 <= d -> 0 <= f d <= 1.

Lemma window w : zsum E (fun d => f (d + Z.of_nat w)) = zsum E f.
Proof.
  induction w as [|w IH]; [apply zsum_ext; intros; f_equal; lia|]. rewrite <- IH.
  pose proof (zsum_shift1 E (fun x => f (x + Z.of_nat w))) as X. cbn beta in X.
  replace (Z.of_nat E + Z.of_nat w) with (Z.of_nat w + Z.of_nat E) in X by lia. rewrite Hper in X by lia. cbn [Z.add] in X.
  transitivity (zsum E (fun d => f (d + 1 + Z.of_nat w))); [apply zsum_ext; intros; f_equal; lia|lia].
Qed.
Lemma windows k w : zsum (k * E) (fun d => f (d + Z.of_nat w)) = Z.of_nat k * zsum E f.
Proof.
  revert w; induction k as [|k IH]; intro w; [reflexivity|]. cbn [Nat.mul]. rewrite zsum_add, window.
  transitivity (zsum E f + zsum (k * E) (fun d => f (d + Z.of_nat (E + w)))); [f_equal; apply zsum_ext; intros d Hd; cbn beta; f_equal; lia|].
  rewrite IH. lia.
Qed.
Lemma periodic_shift k s w : Z.abs (zsum (k * E + s) (fun d => f (d + Z.of_nat w)) - zsum (k * E + s) f) <= Z.of_nat s.
Proof.
  rewrite 2 zsum_add, windows. pose proof (windows k 0) as W0.
  assert (W1 : zsum (k * E) (fun d => f (d + Z.of_nat 0)) = zsum (k * E) f) by (apply zsum_ext; intros; f_equal; cbn [Z.of_nat]; lia).
  pose proof (zsum_bound s (fun d => f (d + Z.of_nat (k * E) + Z.of_nat w)) 1 (fun d Hd => Hrange (d + Z.of_nat (k * E) + Z.of_nat w) ltac:(lia))).
  pose proof (zsum_bound s (fun d => f (d + Z.of_nat (k * E))) 1 (fun d Hd => Hrange (d + Z.of_nat (k * E)) ltac:(lia))). cbn beta in *. lia.
Qed.
End Periodic.

(** The same for one uniform draw: a result that is a periodic function of draw + w. *)
Lemma one_draw_close {R} (F : Z -> R) (E k s w : Z) (test : R -> bool) : 0 <= k -> 0 < E -> 0 <= s -> 0 <= w -> (forall d, 0 <= d -> F (d + E) = F d) ->
  Z.abs (count [k * E + s] (fun ds => test (F (nth 0 ds 0 + w))) - count [k * E + s] (fun ds => test (F (nth 0 ds 0)))) <= s.
Proof.
  intros Hk HE Hs Hw Hp. cbn [count nth].
  set (f := fun d => if test (F d) then 1 else 0).
  pose proof (periodic_shift f (Z.to_nat E)) as P.
  specialize (P ltac:(intros d Hd; unfold f; rewrite Z2Nat.id, Hp by lia; reflexivity) ltac:(intros d _; unfold f; destruct (test (F d)); lia) (Z.to_nat k) (Z.to_nat s) (Z.to_nat w)).
  replace (Z.to_nat k * Z.to_nat E + Z.to_nat s)%nat with (Z.to_nat (k * E + s)) in P by (rewrite Z2Nat.inj_add, Z2Nat.inj_mul by lia; reflexivity).
  rewrite !Z2Nat.id in P by lia. exact P.
Qed.
(** Two starting points. *)
Lemma two_draws_close {R} (F : Z -> R) (E k s w1 w2 : Z) (test : R -> bool) : 0 <= k -> 0 < E -> 0 <= s -> 0 <= w1 -> 0 <= w2 -> (forall d, 0 <= d -> F (d + E) = F d) ->
  Z.abs (count [k * E + s] (fun ds => test (F (nth 0 ds 0 + w1))) - count [k * E + s] (fun ds => test (F (nth 0 ds 0 + w2)))) <= s.
Proof.
  intros Hk HE Hs H1 H2 Hp.
  assert (W : forall a b, 0 <= a -> a <= b -> Z.abs (count [k * E + s] (fun ds => test (F (nth 0 ds 0 + b))) - count [k * E + s] (fun ds => test (F (nth 0 ds 0 + a)))) <= s).
  { intros a b Ha Hab. pose proof (one_draw_close (fun d => F (d + a)) E k s (b - a) test Hk HE Hs ltac:(lia)) as P.
    specialize (P ltac:(intros d Hd; cbn beta; replace (d + E + a) with (d + a + E) by lia; apply Hp; lia)). cbn beta in P.
    assert (X : count [k * E + s] (fun ds => test (F (nth 0 ds 0 + (b - a) + a))) = count [k * E + s] (fun ds => test (F (nth 0 ds 0 + b)))).
    { apply count_ext. intros ds _ _. do 2 f_equal. lia. }
    rewrite X in P. exact P. }
  destruct (Z.le_ge_cases w1 w2) as [L|L]; [specialize (W w1 w2 H1 L)|specialize (W w2 w1 H2 L)]; lia.
Qed.
