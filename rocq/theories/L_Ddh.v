(** The hybrid argument: a list of points under one key against a list of random points. *)
From Verif Require Import Base M_EC L_EC S_Hide L_Hide L_HideKey L_HideMix L_HideView S_Ddh.

Lemma sums_app A B F : zsums (A ++ B) F = zsums A (fun a => zsums B (fun b => F (a ++ b))).
Proof. revert F. induction A as [|x A IH]; intros F; [reflexivity|]. cbn [app zsums]. apply zsum_ext. intros d _. rewrite IH. reflexivity. Qed.
(** Three draws taken out of a list of draws and put in front. *)
Lemma count_gather o P Q f g : (forall k p a c q, drawn P p -> drawn Q q -> 0 <= a < o -> 0 <= k < o -> 0 <= c < o -> f (k :: p ++ a :: c :: q) = g (a :: k :: c :: p ++ q)) ->
  count ([o] ++ P ++ [o; o] ++ Q) f = count ([o; o; o] ++ P ++ Q) g.
Proof.
  intros H. rewrite !count_zsums. set (F := fun ds : list Z => if f ds then 1 else 0). set (G := fun ds : list Z => if g ds then 1 else 0).
  rewrite !sums_app. cbn [zsums].
  transitivity (zsum (Z.to_nat o) (fun k => zsum (Z.to_nat o) (fun a => zsum (Z.to_nat o) (fun c => zsums P (fun p => zsums Q (fun q => F ([k] ++ p ++ [a; c] ++ q))))))).
  - apply zsum_ext. intros k Hk. rewrite sums_app.
    rewrite (zsums_ext P _ (fun p => zsums [o; o] (fun ac => zsums Q (fun q => F ([k] ++ p ++ ac ++ q))))) by (intros p _; rewrite sums_app; reflexivity).
    rewrite zsums_swap. reflexivity.
  - transitivity (zsums [o] (fun k => zsums [o] (fun a => zsum (Z.to_nat o) (fun c => zsums P (fun p => zsums Q (fun q => F (hd 0 k :: p ++ [hd 0 a; c] ++ q))))))); [reflexivity|].
    rewrite zsums_swap. cbn [zsums hd]. apply zsum_ext. intros a Ha. apply zsum_ext. intros k Hk. apply zsum_ext. intros c Hc.
    rewrite sums_app. apply zsums_ext. intros p Hp. apply zsums_ext. intros q Hq. unfold F, G. cbn [app]. rewrite (H k p a c q) by (assumption || lia). reflexivity.
Qed.

Lemma pairs_app j : forall n p q, length p = (2 * j)%nat -> (j <= n)%nat -> pairs n (p ++ q) = pairs j p ++ pairs (n - j) q.
Proof.
  induction j as [|j IH]; intros n p q E Le.
  - destruct p; [|discriminate]. rewrite Nat.sub_0_r. reflexivity.
  - destruct n as [|n]; [lia|]. destruct p as [|a [|c p]]; try (cbn in E; lia). cbn [app pairs Nat.sub]. rewrite IH by (cbn in E; lia). reflexivity.
Qed.
Lemma pairs_len n : forall ds, (2 * n <= length ds)%nat -> length (pairs n ds) = n.
Proof. induction n as [|n IH]; intros [|a [|c ds]] E; cbn [length] in E; try lia; try reflexivity. cbn [pairs length]. rewrite IH by lia. reflexivity. Qed.
Lemma pairs_in n : forall ds x, In x (pairs n ds) -> In (fst x) ds /\ In (snd x) ds.
Proof.
  induction n as [|n IH]; intros ds x Hx; [destruct Hx|]. destruct ds as [|a [|c ds]]; [destruct Hx..|]. destruct Hx as [<-|Hx]; [cbn; tauto|]. apply IH in Hx. cbn [In]. tauto.
Qed.

Lemma sign_values C A : sign C A = 1 \/ sign C A = -1.
Proof. unfold sign. destruct (ec_xy C A) as [[x y]|]; [destruct (Z.even y)|]; tauto. Qed.

Section H.
Variable C : ec.
Hypothesis L : ec_laws C.
Notation o := (ec_order C - 1).
Variable n m : nat.
Variable extra : list Z.
Variable observer : list Z -> list (pt C) -> list (pt C) -> bool.
Notation table := (hash_table C n m).
Notation coins := (extra_coins n m).
Notation bounds := (draws C (1 + 2 * n + m) ++ extra).
Notation keyed k := (fun d => pmul C (k + 1) (hash_point C (fst d))).
Notation made := (fun d => drawn_point C (snd d)).

(** The first j places under the key, the others random. *)
Definition mixed (j : nat) (k : Z) (ds : list Z) : list (pt C) := map (keyed k) (firstn j (pairs n ds)) ++ map made (skipn j (pairs n ds)).
Definition hybrid (j : nat) : Z := count bounds (fun ds => match ds with k :: r => observer (coins r) (table r) (mixed j k r) | _ => false end).

Lemma key_times d K k : K = drawn_point C k -> pmul C (k + 1) (hash_point C d) = pmul C (sign C (drawn_point C d) * (d + 1)) K.
Proof.
  intros ->. unfold hash_point, even_one. set (s := sign C (drawn_point C d)). unfold drawn_point. rewrite <- !(pmul_mul C L). f_equal. ring.
Qed.
Lemma coins_places j p a c q : (j < n)%nat -> length p = (2 * j)%nat -> coins (p ++ a :: c :: q) = extra_coins (n - 1) m (p ++ q).
Proof.
  intros Hj Ep. unfold extra_coins. rewrite !skipn_app, !(skipn_all2 p) by lia. cbn [app].
  replace (2 * n + m - length p)%nat with (S (S (2 * (n - 1) + m - length p))) by lia. reflexivity.
Qed.
Lemma table_places j p a c q : (j < n)%nat -> length p = (2 * j)%nat -> (2 * (n - 1 - j) <= length q)%nat ->
  table (p ++ a :: c :: q) = map (fun d => hash_point C (fst d)) (pairs j p) ++ hash_point C a :: map (fun d => hash_point C (fst d)) (pairs (n - 1 - j) q) ++ map (hash_point C) (firstn m (skipn (2 * (n - 1 - j)) q)).
Proof.
  intros Hj Ep Eq. unfold hash_table. rewrite (pairs_app j n p (a :: c :: q) Ep) by lia. replace (n - j)%nat with (S (n - 1 - j)) by lia. cbn [pairs].
  rewrite skipn_app, (skipn_all2 p) by lia. cbn [app]. replace (2 * n - length p)%nat with (S (S (2 * (n - 1 - j)))) by lia. cbn [skipn]. rewrite map_app. cbn [map fst]. rewrite <- app_assoc. reflexivity.
Qed.
Lemma player_places j k p a c q T : (j < n)%nat -> length p = (2 * j)%nat -> (2 * (n - 1 - j) <= length q)%nat ->
  ddh_player C n m j observer (p ++ q) (drawn_point C a) (drawn_point C k) T =
  observer (coins (p ++ a :: c :: q)) (table (p ++ a :: c :: q)) (map (keyed k) (pairs j p) ++ pmul C (sign C (drawn_point C a)) T :: map made (pairs (n - 1 - j) q)).
Proof.
  intros Hj Ep Eq. rewrite (table_places j p a c q Hj Ep Eq), (coins_places j p a c q Hj Ep). unfold ddh_player. cbv zeta.
  replace (pairs j (p ++ q)) with (pairs j p) by (rewrite (pairs_app j j p q Ep (le_n j)), Nat.sub_diag; destruct q; cbn [pairs]; rewrite app_nil_r; reflexivity).
  replace (skipn (2 * j) (p ++ q)) with q by (rewrite skipn_app, <- Ep, Nat.sub_diag, skipn_all; reflexivity).
  replace (skipn (2 * (n - 1)) (p ++ q)) with (skipn (2 * (n - 1 - j)) q).
  2:{ rewrite skipn_app, (skipn_all2 p) by lia. cbn [app]. replace (2 * (n - 1) - length p)%nat with (2 * (n - 1 - j))%nat by lia. reflexivity. }
  f_equal. f_equal. apply map_ext. intros d. symmetry. apply key_times. reflexivity.
Qed.
Lemma mixed_places j k p a c q : (j < n)%nat -> length p = (2 * j)%nat -> (2 * (n - 1 - j) <= length q)%nat ->
  mixed j k (p ++ a :: c :: q) = map (keyed k) (pairs j p) ++ drawn_point C c :: map made (pairs (n - 1 - j) q) /\
  mixed (S j) k (p ++ a :: c :: q) = map (keyed k) (pairs j p) ++ pmul C (k + 1) (hash_point C a) :: map made (pairs (n - 1 - j) q).
Proof.
  intros Hj Ep Eq. unfold mixed. rewrite (pairs_app j n p (a :: c :: q) Ep) by lia. replace (n - j)%nat with (S (n - 1 - j)) by lia. cbn [pairs].
  assert (Lp : length (pairs j p) = j) by (apply pairs_len; lia). set (A := pairs j p) in *. set (B := pairs (n - 1 - j) q).
  assert (F1 : firstn j (A ++ (a, c) :: B) = A) by (rewrite <- Lp at 1; rewrite firstn_app, Nat.sub_diag, firstn_all; cbn [firstn]; apply app_nil_r).
  assert (S1 : skipn j (A ++ (a, c) :: B) = (a, c) :: B) by (rewrite <- Lp at 1; rewrite skipn_app, Nat.sub_diag, skipn_all; reflexivity).
  assert (F2 : firstn (S j) (A ++ (a, c) :: B) = A ++ [(a, c)]).
  { replace (S j) with (length (A ++ [(a, c)])) by (rewrite app_length; cbn; lia). change ((a, c) :: B) with ([(a, c)] ++ B). rewrite app_assoc, firstn_app, Nat.sub_diag, firstn_all. cbn [firstn]. apply app_nil_r. }
  assert (S2 : skipn (S j) (A ++ (a, c) :: B) = B).
  { replace (S j) with (length (A ++ [(a, c)])) by (rewrite app_length; cbn; lia). change ((a, c) :: B) with ([(a, c)] ++ B). rewrite app_assoc, skipn_app, Nat.sub_diag, skipn_all. reflexivity. }
  rewrite F1, S1, F2, S2. split; [reflexivity|]. rewrite map_app, <- app_assoc. reflexivity.
Qed.

(** The sign does not change the distribution of a random point. *)
Lemma sum_signed A (F : pt C -> Z) : zsum (Z.to_nat o) (fun c => F (pmul C (sign C A) (drawn_point C c))) = zsum (Z.to_nat o) (fun c => F (drawn_point C c)).
Proof.
  pose proof (order_gt1 C L) as N1. destruct (sign_values C A) as [E|E]; rewrite E.
  - apply zsum_ext. intros c _. rewrite (pmul_1 C). reflexivity.
  - rewrite <- (zsum_rename (Z.to_nat o) (fun c => F (drawn_point C c)) (fun d => ec_order C - 2 - d)) by (intros; lia).
    apply zsum_ext. intros c Hc. f_equal. unfold drawn_point. rewrite <- (pmul_mul C L). apply (pmul_eqmod C L). exists (-1). ring.
Qed.

Lemma split_draws j : (j < n)%nat -> bounds = [o] ++ draws C (2 * j) ++ [o; o] ++ (draws C (2 * (n - 1 - j) + m) ++ extra) /\
  draws C (2 * (n - 1) + m) ++ extra = draws C (2 * j) ++ (draws C (2 * (n - 1 - j) + m) ++ extra).
Proof.
  intros Hj. rewrite !app_assoc. unfold draws. change [o; o] with (repeat o 2). change [o] with (repeat o 1). rewrite <- !repeat_app. split; do 2 f_equal; lia.
Qed.
Lemma drawn_lens j p q : drawn (draws C (2 * j)) p -> drawn (draws C (2 * (n - 1 - j) + m) ++ extra) q -> length p = (2 * j)%nat /\ (2 * (n - 1 - j) <= length q)%nat.
Proof. intros Hp Hq. apply drawn_len in Hp, Hq. rewrite app_length in Hq. unfold draws in Hp, Hq. rewrite repeat_length in Hp, Hq. lia. Qed.
Lemma step_key j : (j < n)%nat -> hybrid (S j) = count (draws C 3 ++ draws C (2 * (n - 1) + m) ++ extra) (fun ds => match ds with
    | a :: k :: c :: cs => ddh_player C n m j observer cs (drawn_point C a) (drawn_point C k) (pmul C (k + 1) (drawn_point C a)) | _ => false end).
Proof.
  intros Hj. unfold hybrid. destruct (split_draws j Hj) as [-> ->]. apply count_gather. intros k p a c q Hp Hq _ _ _. destruct (drawn_lens j p q Hp Hq) as [Ep Eq].
  rewrite (player_places j k p a c q) by lia. destruct (mixed_places j k p a c q) as [_ ->]; [lia..|]. do 2 f_equal. unfold hash_point, even_one. rewrite <- !(pmul_mul C L). do 2 f_equal. ring.
Qed.
Lemma step_random j : (j < n)%nat -> hybrid j = count (draws C 3 ++ draws C (2 * (n - 1) + m) ++ extra) (fun ds => match ds with
    | a :: k :: c :: cs => ddh_player C n m j observer cs (drawn_point C a) (drawn_point C k) (drawn_point C c) | _ => false end).
Proof.
  intros Hj. unfold hybrid. destruct (split_draws j Hj) as [-> ->]. set (Q := draws C (2 * (n - 1 - j) + m) ++ extra).
  set (V := fun a k p q T => observer (coins (p ++ a :: 0 :: q)) (table (p ++ a :: 0 :: q)) (map (keyed k) (pairs j p) ++ T :: map made (pairs (n - 1 - j) q))).
  rewrite (count_gather o (draws C (2 * j)) Q _ (fun ds => match ds with a :: k :: c :: cs => V a k (firstn (2 * j) cs) (skipn (2 * j) cs) (drawn_point C c) | _ => false end)).
  2:{ intros k p a c q Hp Hq _ _ _. destruct (drawn_lens j p q Hp Hq) as [Ep Eq].
      destruct (mixed_places j k p a c q) as [-> _]; [lia..|]. unfold V.
      rewrite firstn_app, skipn_app, <- Ep, Nat.sub_diag, firstn_all, skipn_all. cbn [firstn skipn app]. rewrite app_nil_r. rewrite !(table_places j), !(coins_places j) by lia. reflexivity. }
  rewrite !count_zsums. change (draws C 3) with [o; o; o]. rewrite !(sums_app [o; o; o]). cbn [zsums app].
  apply zsum_ext. intros a _. apply zsum_ext. intros k _.
  transitivity (zsum (Z.to_nat o) (fun c => zsums (draws C (2 * j) ++ Q) (fun cs => if V a k (firstn (2 * j) cs) (skipn (2 * j) cs) (pmul C (sign C (drawn_point C a)) (drawn_point C c)) then 1 else 0))).
  - symmetry. exact (sum_signed (drawn_point C a) (fun T => zsums (draws C (2 * j) ++ Q) (fun cs => if V a k (firstn (2 * j) cs) (skipn (2 * j) cs) T then 1 else 0))).
  - apply zsum_ext. intros c _. rewrite !sums_app. apply zsums_ext. intros p Hp. apply zsums_ext. intros q Hq. destruct (drawn_lens j p q Hp Hq) as [Ep Eq].
    rewrite (player_places j k p a 0 q) by lia. unfold V. rewrite firstn_app, skipn_app, <- Ep, Nat.sub_diag, firstn_all, skipn_all. cbn [firstn skipn app]. rewrite app_nil_r. reflexivity.
Qed.

Lemma hybrid_all : hybrid n = count bounds (fun ds => match ds with k :: r => observer (coins r) (table r) (under_key C k n r) | _ => false end).
Proof.
  apply count_ext. intros [|k r] El _; [reflexivity|]. rewrite app_length in El. unfold draws in El. rewrite repeat_length in El. cbn [length] in El. f_equal. unfold mixed, under_key.
  rewrite firstn_all2, skipn_all2 by (rewrite pairs_len by lia; lia). apply app_nil_r.
Qed.
Lemma hybrid_none : hybrid 0 = count bounds (fun ds => match ds with k :: r => observer (coins r) (table r) (random_points C n r) | _ => false end).
Proof. reflexivity. Qed.

Lemma ddh_hybrid : Z.abs (count bounds (fun ds => match ds with k :: r => observer (coins r) (table r) (under_key C k n r) | _ => false end) -
                          count bounds (fun ds => match ds with k :: r => observer (coins r) (table r) (random_points C n r) | _ => false end)) <= ddh_total C n m extra observer.
Proof.
  rewrite <- hybrid_all, <- hybrid_none. unfold ddh_total.
  assert (G : forall i, (i <= n)%nat -> Z.abs (hybrid i - hybrid 0) <= zsum i (fun j => ddh_gap C (draws C (2 * (n - 1) + m) ++ extra) (ddh_player C n m (Z.to_nat j) observer))); [|apply G; lia].
  induction i as [|i IH]; intros Hi; [rewrite Z.sub_diag; cbn [zsum]; lia|].
  cbn [zsum]. rewrite Nat2Z.id. specialize (IH ltac:(lia)).
  pose proof (step_key i ltac:(lia)) as K. pose proof (step_random i ltac:(lia)) as R. unfold ddh_gap at 2. cbv zeta. rewrite <- K, <- R. lia.
Qed.
End H.
