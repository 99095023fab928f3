From Verif Require Import Base S_Hide.

Lemma zsum_ext n f g : (forall d, 0 <= d < Z.of_nat n -> f d = g d) -> zsum n f = zsum n g.
Proof. induction n as [|n IH]; intros H; [reflexivity|]. cbn [zsum]. rewrite IH by (intros; apply H; lia). rewrite H by lia. reflexivity. Qed.
Lemma zsum_bound n f m : (forall d, 0 <= d < Z.of_nat n -> 0 <= f d <= m) -> 0 <= zsum n f <= Z.of_nat n * m.
Proof. induction n as [|n IH]; intros H; [cbn; lia|]. cbn [zsum]. specialize (IH ltac:(intros; apply H; lia)). specialize (H (Z.of_nat n) ltac:(lia)). nia. Qed.
Lemma zsum_sub n f g : zsum n f - zsum n g = zsum n (fun d => f d - g d).
Proof. induction n as [|n IH]; [reflexivity|]. cbn [zsum]. lia. Qed.
Lemma zsum_abs n f m : (forall d, 0 <= d < Z.of_nat n -> Z.abs (f d) <= m) -> Z.abs (zsum n f) <= Z.of_nat n * m.
Proof. induction n as [|n IH]; intros H; [cbn; lia|]. cbn [zsum]. specialize (IH ltac:(intros; apply H; lia)). specialize (H (Z.of_nat n) ltac:(lia)). nia. Qed.
Lemma zsum_scale n c f : c * zsum n f = zsum n (fun d => c * f d).
Proof. induction n as [|n IH]; cbn [zsum]; [ring|]. rewrite <- IH. ring. Qed.
(** Shifting by one changes the sum by two terms. *)
Lemma zsum_shift1 n f : zsum n (fun d => f (d + 1)) = zsum n f + f (Z.of_nat n) - f 0.
Proof. induction n as [|n IH]; [cbn [zsum Z.of_nat]; lia|]. cbn [zsum]. rewrite IH. rewrite Nat2Z.inj_succ. replace (Z.succ (Z.of_nat n)) with (Z.of_nat n + 1) by lia. lia. Qed.
Lemma zsum_shift n f m w : (forall d, 0 <= d -> 0 <= f d <= m) -> Z.abs (zsum n (fun d => f (d + Z.of_nat w)) - zsum n f) <= Z.of_nat w * m.
Proof.
  intros H. induction w as [|w IH].
  - replace (zsum n (fun d => f (d + Z.of_nat 0))) with (zsum n f) by (apply zsum_ext; intros; f_equal; lia). lia.
  - replace (zsum n (fun d => f (d + Z.of_nat (S w)))) with (zsum n (fun d => (fun e => f (e + Z.of_nat w)) (d + 1))) by (apply zsum_ext; intros; f_equal; lia).
    rewrite (zsum_shift1 n (fun e => f (e + Z.of_nat w))). pose proof (H (Z.of_nat n + Z.of_nat w) ltac:(lia)). pose proof (H (0 + Z.of_nat w) ltac:(lia)). lia.
Qed.

Lemma tuples_nonneg bs : Forall (fun b => 0 <= b) bs -> 0 <= tuples bs.
Proof. induction 1; cbn [tuples fold_right]; [lia|]. change (0 <= x * tuples l). nia. Qed.
Lemma count_ext bs t u : (forall ds, length ds = length bs -> Forall2 (fun b d => 0 <= d < b) bs ds -> t ds = u ds) -> count bs t = count bs u.
Proof.
  revert t u. induction bs as [|b bs IH]; intros t u H; cbn [count]; [rewrite H by (reflexivity || constructor); reflexivity|].
  apply zsum_ext. intros d Hd. apply IH. intros ds L F. apply H; [cbn [length]; lia|]. constructor; [lia|exact F].
Qed.
Lemma count_bound bs t : Forall (fun b => 0 <= b) bs -> 0 <= count bs t <= tuples bs.
Proof.
  intros H. revert t. induction H as [|b bs Hb H IH]; intros t; cbn [count tuples fold_right]; [destruct (t []); lia|].
  pose proof (zsum_bound (Z.to_nat b) (fun d => count bs (fun ds => t (d :: ds))) (tuples bs) (fun d _ => IH _)). rewrite Z2Nat.id in H0 by lia. exact H0.
Qed.

Fixpoint shift (ws ds : list Z) : list Z := match ws, ds with w :: ws', d :: ds' => (d + w) :: shift ws' ds' | _, _ => ds end.

(** Adding fixed amounts w_i to draws from ranges at least 2^k / u_i times as large is hardly noticeable. *)
Definition small_shift (k : Z) (b : Z) (wu : Z * Z) : Prop := 0 <= fst wu /\ 0 <= snd wu /\ fst wu * 2 ^ k <= snd wu * b /\ 0 <= b.
Definition zsum_list (us : list Z) : Z := fold_right Z.add 0 us.
Lemma shift_close {R} k bs wus (F : list Z -> R) : 0 <= k -> Forall2 (small_shift k) bs wus ->
  within_distance (zsum_list (map snd wus)) k bs (fun ds => F (shift (map fst wus) ds)) F.
Proof.
  intros Hk H test. assert (P : 0 < 2 ^ k) by (apply Z.pow_pos_nonneg; lia).
  assert (G : forall t : list Z -> bool, 2 ^ k * Z.abs (count bs (fun ds => t (shift (map fst wus) ds)) - count bs t) <= zsum_list (map snd wus) * tuples bs).
  { clear F test R. induction H as [|b [w u] bs wus (Hw & Hu & Hb & Hb0) H IH]; intros t; [cbn [count shift map tuples fold_right zsum_list]; destruct (t []); lia|]. cbn [fst snd] in *.
    assert (N : Forall (fun b => 0 <= b) bs) by (clear -H; induction H as [|b [w u] bs ws (_ & _ & _ & B) H IH]; constructor; [exact B|exact IH]).
    pose proof (tuples_nonneg bs N) as Ht.
    cbn [count map fst snd zsum_list fold_right tuples]. fold (tuples bs). fold (zsum_list (map snd wus)). set (T := tuples bs) in *. set (U := zsum_list (map snd wus)) in *. set (n := Z.to_nat b).
    set (a := zsum n (fun d => count bs (fun ds => t (shift (w :: map fst wus) (d :: ds))))). set (c := zsum n (fun d => count bs (fun ds => t (d :: ds)))).
    set (mid := zsum n (fun d => count bs (fun ds => t (d + w :: ds)))).
    assert (A1 : 2 ^ k * Z.abs (a - mid) <= b * (U * T)).
    { unfold a, mid. rewrite zsum_sub. rewrite <- (Z.abs_eq (2 ^ k)), <- Z.abs_mul, zsum_scale by lia. replace b with (Z.of_nat n) by (unfold n; lia). apply zsum_abs. intros d Hd. rewrite Z.abs_mul, (Z.abs_eq (2 ^ k)) by lia.
      cbn [shift]. apply (IH (fun ds => t (d + w :: ds))). }
    assert (A2 : Z.abs (mid - c) <= w * T).
    { pose proof (zsum_shift n (fun d => count bs (fun ds => t (d :: ds))) T (Z.to_nat w) (fun d _ => count_bound bs _ N)) as Q. rewrite Z2Nat.id in Q by exact Hw. exact Q. }
    assert (A3 : Z.abs (a - c) <= Z.abs (a - mid) + Z.abs (mid - c)) by lia. assert (A4 : 2 ^ k * Z.abs (mid - c) <= u * b * T) by nia. nia. }
  apply (G (fun ds => test (F ds))).
Qed.
Lemma shift_len ws ds : length (shift ws ds) = length ds.
Proof. revert ds. induction ws as [|w ws IH]; intros [|d ds]; cbn [shift length]; try reflexivity. rewrite IH. reflexivity. Qed.
Lemma shift_nth ws ds i : (i < length ds)%nat -> nth i (shift ws ds) 0 = nth i ds 0 + nth i ws 0.
Proof.
  revert ds i. induction ws as [|w ws IH]; intros [|d ds] i Hi; cbn [length] in Hi; try lia; cbn [shift]; [destruct i; cbn [nth]; lia|].
  destruct i as [|i]; cbn [nth]; [reflexivity|]. apply IH. lia.
Qed.
Lemma draw_range bs ds i : Forall2 (fun b d => 0 <= d < b) bs ds -> (i < length bs)%nat -> 0 <= nth i ds 0 < nth i bs 0.
Proof. intros H. revert i. induction H; intros i Hi; cbn [length] in Hi; [lia|]. destruct i; cbn [nth]; [assumption|]. apply IHForall2. lia. Qed.
Lemma distance_ext {R} num k bs (f f' g g' : list Z -> R) : (forall ds, length ds = length bs -> Forall2 (fun b d => 0 <= d < b) bs ds -> f ds = f' ds) ->
  (forall ds, length ds = length bs -> Forall2 (fun b d => 0 <= d < b) bs ds -> g ds = g' ds) -> within_distance num k bs f g -> within_distance num k bs f' g'.
Proof.
  intros Hf Hg H test. specialize (H test). rewrite <- (count_ext bs (fun ds => test (f ds)) (fun ds => test (f' ds))), <- (count_ext bs (fun ds => test (g ds)) (fun ds => test (g' ds))); [exact H| |].
  - intros ds L F. rewrite (Hg ds L F). reflexivity.
  - intros ds L F. rewrite (Hf ds L F). reflexivity.
Qed.
Lemma distance_more {R} num num' k bs (f g : list Z -> R) : Forall (fun b => 0 <= b) bs -> num <= num' -> within_distance num k bs f g -> within_distance num' k bs f g.
Proof. intros N H D test. specialize (D test). pose proof (tuples_nonneg bs N). nia. Qed.

(** ** Draws for which something goes wrong *)
Lemma zsum_le n f g : (forall d, 0 <= d < Z.of_nat n -> f d <= g d) -> zsum n f <= zsum n g.
Proof. induction n as [|n IH]; intros H; [cbn; lia|]. cbn [zsum]. specialize (IH ltac:(intros; apply H; lia)). specialize (H (Z.of_nat n) ltac:(lia)). lia. Qed.
Lemma zsum_abs_le n f g : (forall d, 0 <= d < Z.of_nat n -> Z.abs (f d) <= g d) -> Z.abs (zsum n f) <= zsum n g.
Proof. induction n as [|n IH]; intros H; [cbn; lia|]. cbn [zsum]. specialize (IH ltac:(intros; apply H; lia)). specialize (H (Z.of_nat n) ltac:(lia)). lia. Qed.
Lemma count_differ bs (t u bad : list Z -> bool) : (forall ds, length ds = length bs -> Forall2 (fun b d => 0 <= d < b) bs ds -> bad ds = false -> t ds = u ds) ->
  Z.abs (count bs t - count bs u) <= count bs bad.
Proof.
  revert t u bad. induction bs as [|b bs IH]; intros t u bad H; cbn [count].
  - specialize (H [] eq_refl ltac:(constructor)). destruct (bad []); [destruct (t []), (u []); cbn; lia|]. rewrite H by reflexivity. destruct (u []); cbn; lia.
  - rewrite zsum_sub. apply zsum_abs_le. intros d Hd. apply IH. intros ds L F B. apply H; [cbn [length]; lia| |exact B]. constructor; [lia|exact F].
Qed.
Lemma distance_but {R} num k bs bad (f f' g : list Z -> R) : 0 <= k -> (forall ds, length ds = length bs -> Forall2 (fun b d => 0 <= d < b) bs ds -> bad ds = false -> f ds = f' ds) ->
  within_distance num k bs f' g -> within_distance_but num k bs bad f g.
Proof.
  intros Hk H D test. specialize (D test). assert (P : 0 < 2 ^ k) by (apply Z.pow_pos_nonneg; lia).
  pose proof (count_differ bs (fun ds => test (f ds)) (fun ds => test (f' ds)) bad) as Q. cbv beta in Q. specialize (Q ltac:(intros ds L F B; rewrite (H ds L F B); reflexivity)).
  set (x := count bs (fun ds => test (f ds))) in *. set (y := count bs (fun ds => test (f' ds))) in *. set (z := count bs (fun ds => test (g ds))) in *. set (w := count bs bad) in *.
  assert (Z.abs (x - z) <= Z.abs (x - y) + Z.abs (y - z)) by lia. nia.
Qed.

(** ** Parts of a list of draws *)
Lemma part_len s l ds : length (part s l ds) = l.
Proof. unfold part. rewrite map_length, seq_length. reflexivity. Qed.
Lemma part_mid a x z : part (length a) (length x) (a ++ x ++ z) = x.
Proof.
  apply (nth_ext _ _ 0 0); [apply part_len|]. intros i Hi. rewrite part_len in Hi. unfold part.
  rewrite (nth_indep _ 0 (nth (length a + 0) (a ++ x ++ z) 0)) by (rewrite map_length, seq_length; exact Hi).
  rewrite (map_nth (fun i => nth (length a + i) (a ++ x ++ z) 0)), seq_nth by exact Hi. rewrite app_nth2 by lia. replace (length a + (0 + i) - length a)%nat with i by lia. apply app_nth1. exact Hi.
Qed.
Lemma part_shift s l ws ds : (s + l <= length ds)%nat -> part s l (shift ws ds) = map (fun i => nth (s + i) ds 0 + nth (s + i) ws 0) (seq 0 l).
Proof. intros H. unfold part. apply map_ext_in. intros i Hi. apply in_seq in Hi. apply shift_nth. lia. Qed.
Lemma part_range a B l z ds : Forall2 (fun b d => 0 <= d < b) (a ++ repeat B l ++ z) ds -> forall i, (i < l)%nat -> 0 <= nth (length a + i) ds 0 < B.
Proof.
  intros H i Hi. assert (N : nth (length a + i) (a ++ repeat B l ++ z) 0 = B).
  { rewrite app_nth2 by lia. replace (length a + i - length a)%nat with i by lia. rewrite app_nth1 by (rewrite repeat_length; exact Hi). clear - Hi. revert i Hi. induction l as [|l IH]; intros i Hi; [lia|]. destruct i as [|i]; [reflexivity|]. cbn [repeat nth]. apply IH. lia. }
  pose proof (draw_range _ _ (length a + i) H) as Q. rewrite N in Q. apply Q. rewrite !app_length, repeat_length. lia.
Qed.
Lemma nth_mid a x z i : (i < length x)%nat -> nth (length a + i) (a ++ x ++ z) 0 = nth i x 0.
Proof. intros H. rewrite app_nth2 by lia. replace (length a + i - length a)%nat with i by lia. apply app_nth1. exact H. Qed.
(** Masks 2^(k + chal) times as large as the values, and a challenge below 2^chal. *)
Lemma small_shifts k chal c X u B l v : 0 <= c < 2 ^ chal -> 0 <= k -> 0 <= u -> 0 <= X -> X * (2 ^ chal * 2 ^ k) <= u * B -> 0 <= B -> length v = l -> Forall (fun x => 0 <= x <= X) v ->
  Forall2 (small_shift k) (repeat B l) (map (fun x => (c * x, u)) v).
Proof.
  intros Hc Hk Hu HX HB HB0 <- H. induction H as [|x v Hx H IH]; [constructor|]. cbn [length repeat map]. constructor; [|exact IH]. unfold small_shift. cbn [fst snd].
  assert (P : 0 < 2 ^ k) by (apply Z.pow_pos_nonneg; lia). split; [apply Z.mul_nonneg_nonneg; lia|]. split; [exact Hu|]. split; [|exact HB0].
  etransitivity; [|exact HB]. rewrite Z.mul_assoc. apply Z.mul_le_mono_nonneg_r; [lia|]. rewrite (Z.mul_comm X). apply Z.mul_le_mono_nonneg; lia.
Qed.
