(** Lemmas for the secrecy of ElGamal. *)
From Verif Require Import Base M_EC L_EC L_Mod M_ElGamal S_ElGamal L_ElGamal S_Hide L_Hide L_HideKey L_HideMix L_HideView L_HideCom S_Ddh L_Ddh S_Secrecy.

(** Two draws put in front of the others, and an additional one that is not used. *)
Lemma count_spread o P Q f g : 0 <= o -> (forall k p a c q, drawn P p -> drawn Q q -> 0 <= a < o -> 0 <= k < o -> 0 <= c < o -> f (k :: p ++ a :: q) = g (a :: k :: c :: p ++ q)) ->
  o * count ([o] ++ P ++ [o] ++ Q) f = count ([o; o; o] ++ P ++ Q) g.
Proof.
  intros Ho H. rewrite !count_zsums. set (F := fun ds : list Z => if f ds then 1 else 0). set (G := fun ds : list Z => if g ds then 1 else 0).
  rewrite !sums_app. cbn [zsums].
  transitivity (o * zsum (Z.to_nat o) (fun k => zsum (Z.to_nat o) (fun a => zsums P (fun p => zsums Q (fun q => F ([k] ++ p ++ [a] ++ q)))))).
  - f_equal. apply zsum_ext. intros k Hk. rewrite sums_app.
    rewrite (zsums_ext P _ (fun p => zsums [o] (fun ac => zsums Q (fun q => F ([k] ++ p ++ ac ++ q))))) by (intros p _; rewrite sums_app; reflexivity).
    rewrite zsums_swap. reflexivity.
  - transitivity (o * zsums [o] (fun k => zsums [o] (fun a => zsums P (fun p => zsums Q (fun q => F (hd 0 k :: p ++ [hd 0 a] ++ q)))))); [reflexivity|].
    rewrite zsums_swap. cbn [zsums hd]. rewrite zsum_scale. apply zsum_ext. intros a Ha. rewrite zsum_scale. apply zsum_ext. intros k Hk.
    rewrite (zsum_ext _ _ (fun _ => zsums P (fun p => zsums Q (fun q => F (k :: p ++ [a] ++ q))))).
    + rewrite zsum_const, Z2Nat.id by lia. reflexivity.
    + intros c Hc. rewrite sums_app. apply zsums_ext. intros p Hp. apply zsums_ext. intros q Hq. unfold F, G. cbn [app]. rewrite (H k p a c q) by (assumption || lia). reflexivity.
Qed.

Section S.
Variable C : ec.
Hypothesis L : ec_laws C.
Notation o := (ec_order C - 1).
Notation n := (ec_order C).

(** All indices but one against a whole period. *)
Lemma but_one (F : Z -> Z) w : (forall d, 0 <= d -> F (d + n) = F d) -> 0 <= w -> zsum (Z.to_nat o) (fun d => F (d + 1 + w)) = zsum (Z.to_nat n) F - F (n + w).
Proof.
  intros Per Hw. pose proof (order_gt1 C L) as N1. pose proof (window F (Z.to_nat n)) as Wd. rewrite Z2Nat.id in Wd by lia. specialize (Wd Per (Z.to_nat (w + 1))). rewrite Z2Nat.id in Wd by lia.
  replace (Z.to_nat n) with (S (Z.to_nat o)) in Wd at 1 by lia. cbn [zsum] in Wd. rewrite Z2Nat.id in Wd by lia.
  replace (n - 1 + (w + 1)) with (n + w) in Wd by lia. rewrite <- Wd.
  rewrite (zsum_ext (Z.to_nat o) (fun d => F (d + 1 + w)) (fun d => F (d + (w + 1)))); [lia|]. intros d _. f_equal. lia.
Qed.
(** The same in two dimensions, with a shear. *)
Lemma but_one2 (F : Z -> Z -> Z) x u e : (forall a c, 0 <= a -> 0 <= c -> F (a + n) c = F a c) -> (forall a c, 0 <= a -> 0 <= c -> F a (c + n) = F a c) -> (forall a c, 0 <= F a c <= 1) -> 0 <= x -> 0 <= u -> 0 <= e ->
  let all := zsum (Z.to_nat n) (fun a => zsum (Z.to_nat n) (F a)) in
  all - (2 * o + 1) <= zsum (Z.to_nat o) (fun a => zsum (Z.to_nat o) (fun c => F (a + 1 + u) (c + 1 + (e + x * (a + 1))))) <= all.
Proof.
  intros P1 P2 B Hx Hu He all. pose proof (order_gt1 C L) as N1.
  rewrite (zsum_ext (Z.to_nat o) _ (fun a => zsum (Z.to_nat n) (F (a + 1 + u)) - F (a + 1 + u) (n + (e + x * (a + 1))))).
  2:{ intros a Ha. rewrite Z2Nat.id in Ha by lia. apply (but_one (F (a + 1 + u))); [intros d Hd; apply P2; lia|]. nia. }
  rewrite <- (zsum_sub (Z.to_nat o)). rewrite (but_one (fun a => zsum (Z.to_nat n) (F a)) u).
  2:{ intros d Hd. apply zsum_ext. intros c Hc. apply P1; lia. }
  2:{ exact Hu. }
  fold all. pose proof (zsum_bound (Z.to_nat n) (F (n + u)) 1 (fun d _ => B (n + u) d)) as B1.
  pose proof (zsum_bound (Z.to_nat o) (fun a => F (a + 1 + u) (n + (e + x * (a + 1)))) 1 (fun d _ => B _ _)) as B2. rewrite Z2Nat.id in B1, B2 by lia. lia.
Qed.

(** A ciphertext with independent random points added, over all draws of the points: any two ciphertexts are alike. *)
Lemma noise_close (x : Z) (f : eg_ct C -> Z) (c c' : eg_ct C) : 0 <= x -> (forall z, 0 <= f z <= 1) ->
  let noisy c a b := {| eg_u := padd C (eg_u C c) (drawn_point C a); eg_e := padd C (eg_e C c) (padd C (drawn_point C b) (pmul C x (drawn_point C a))) |} in
  Z.abs (zsum (Z.to_nat o) (fun a => zsum (Z.to_nat o) (fun b => f (noisy c a b))) - zsum (Z.to_nat o) (fun a => zsum (Z.to_nat o) (fun b => f (noisy c' a b)))) <= 2 * o + 1.
Proof.
  intros Hx B noisy. set (F := fun a b => f {| eg_u := pmul C a (pgen C); eg_e := pmul C b (pgen C) |}).
  assert (R : forall d, zsum (Z.to_nat n) (fun a => zsum (Z.to_nat n) (F a)) - (2 * o + 1) <= zsum (Z.to_nat o) (fun a => zsum (Z.to_nat o) (fun b => f (noisy d a b))) <= zsum (Z.to_nat n) (fun a => zsum (Z.to_nat n) (F a))).
  { intros d. destruct (log_exists C L (pgen C) (eg_u C d) (gen_not_inf C L)) as (u & Hu & Eu). destruct (log_exists C L (pgen C) (eg_e C d) (gen_not_inf C L)) as (e & He & Ee).
    rewrite (zsum_ext (Z.to_nat o) (fun a => zsum (Z.to_nat o) (fun b => f (noisy d a b))) (fun a => zsum (Z.to_nat o) (fun b => F (a + 1 + u) (b + 1 + (e + x * (a + 1)))))).
    - apply but_one2; try lia.
      + intros a b _ _. unfold F. do 2 f_equal. apply (pmul_eqmod C L). exists 1. ring.
      + intros a b _ _. unfold F. do 2 f_equal. apply (pmul_eqmod C L). exists 1. ring.
      + intros a b. apply B.
    - intros a _. apply zsum_ext. intros b _. unfold F, noisy, drawn_point. rewrite Eu, Ee. f_equal. f_equal.
      + rewrite <- (pmul_add C L). f_equal. ring.
      + rewrite <- (pmul_mul C L), <- !(pmul_add C L). f_equal. ring. }
  pose proof (R c). pose proof (R c'). lia.
Qed.

Variable x : Z.
Hypothesis Hx : 0 <= x.
Variable ask : eg_public C -> list (eg_ct C) -> request C.
Variable guess : eg_public C -> list (eg_ct C) -> bool.
Definition joint (K : pt C) : eg_public C := {| eg_g := pgen C; eg_y := padd C K (pmul C x (pgen C)) |}.

(** An answer of the library, from the points of a Diffie-Hellman triple. *)
Lemma answer_is k a second q : 0 <= a < o -> answer C (joint (drawn_point C k)) second q a =
  let c := chosen C second q in {| eg_u := padd C (eg_u C c) (drawn_point C a); eg_e := padd C (eg_e C c) (padd C (pmul C (k + 1) (drawn_point C a)) (pmul C x (drawn_point C a))) |}.
Proof.
  intros Ha. assert (E : pmul C (a + 1) (padd C (drawn_point C k) (pmul C x (pgen C))) = padd C (pmul C (k + 1) (drawn_point C a)) (pmul C x (drawn_point C a))).
  { rewrite (pmul_add_pt C L). unfold drawn_point. rewrite <- !(pmul_mul C L). f_equal; f_equal; ring. }
  destruct q as [m0 m1|c0 c1]; cbn [answer chosen]; cbv zeta.
  - unfold eg_encrypt, joint. cbn [eg_g eg_y eg_u eg_e]. rewrite (key_draw C a Ha), !(point_mul_eq C L), E, (padd_inf C L). reflexivity.
  - unfold eg_rerandomize, joint. cbn [eg_g eg_y eg_u eg_e]. rewrite (key_draw C a Ha), !(point_mul_eq C L), E. reflexivity.
Qed.
Lemma talk_app pk second p : forall seen q, talk C pk ask second seen (p ++ q) = talk C pk ask second (talk C pk ask second seen p) q.
Proof. induction p as [|d p IH]; intros seen q; [reflexivity|]. cbn [app talk]. apply IH. Qed.

Variable l : nat.
(** The first j turns with the first alternative, the others with the second. *)
Definition mixed (j : nat) : Z := count (draws C (1 + l)) (fun ds => match ds with
  | k :: r => let pk := joint (drawn_point C k) in guess pk (talk C pk ask true (talk C pk ask false [] (firstn j r)) (skipn j r))
  | _ => false end).

Lemma front {A} (p q : list A) j : length p = j -> firstn j (p ++ q) = p /\ skipn j (p ++ q) = q.
Proof. intros <-. split; [rewrite firstn_app, Nat.sub_diag, firstn_all; apply app_nil_r|rewrite skipn_app, Nat.sub_diag, skipn_all; reflexivity]. Qed.
Lemma split_turns j : (j < l)%nat -> draws C (1 + l) = [o] ++ draws C j ++ [o] ++ draws C (l - 1 - j) /\ draws C (l - 1) = draws C j ++ draws C (l - 1 - j).
Proof.
  intros Hj. unfold draws. split.
  - replace (1 + l)%nat with (1 + (j + (1 + (l - 1 - j))))%nat by lia. rewrite !repeat_app. reflexivity.
  - rewrite <- repeat_app. f_equal. lia.
Qed.
(** One turn: the triple of the player is a Diffie-Hellman triple. *)
Lemma turn_real j (second : bool) : (j < l)%nat -> o * mixed (if second then j else S j) = count (draws C 3 ++ draws C (l - 1)) (fun ds : list Z => match ds with
  | a :: k :: c :: cs => secrecy_player C x ask guess j second cs (drawn_point C a) (drawn_point C k) (pmul C (k + 1) (drawn_point C a))
  | _ => false end).
Proof.
  intros Hj. pose proof (order_gt1 C L) as N1. destruct (split_turns j Hj) as [E1 E2]. unfold mixed. rewrite E1, E2. apply count_spread; [lia|].
  intros k p a c q Hp Hq Ha Hk Hc. apply drawn_len in Hp. unfold draws in Hp. rewrite repeat_length in Hp. unfold secrecy_player. fold (joint (drawn_point C k)).
  destruct (front p q j Hp) as [-> ->]. cbv zeta. rewrite <- (answer_is k a second) by exact Ha. f_equal. destruct second.
  - destruct (front p (a :: q) j Hp) as [-> ->]. reflexivity.
  - assert (Hp' : length (p ++ [a]) = S j) by (rewrite app_length, Hp; cbn [length]; lia). replace (p ++ a :: q) with ((p ++ [a]) ++ q) by (rewrite <- app_assoc; reflexivity).
    destruct (front (p ++ [a]) q (S j) Hp') as [-> ->]. rewrite talk_app. reflexivity.
Qed.
(** With a random third point the alternatives are alike. *)
Lemma turn_random j : (j < l)%nat -> 
  let world (second : bool) := count (draws C 3 ++ draws C (l - 1)) (fun ds => match ds with
    | a :: k :: c :: cs => secrecy_player C x ask guess j second cs (drawn_point C a) (drawn_point C k) (drawn_point C c)
    | _ => false end) in
  Z.abs (world false - world true) <= (2 * o + 1) * tuples (draws C l).
Proof.
  intros Hj world. pose proof (order_gt1 C L) as N1.
  assert (W : forall second, world second = zsum (Z.to_nat o) (fun k => zsums (draws C (l - 1)) (fun cs => zsum (Z.to_nat o) (fun a => zsum (Z.to_nat o) (fun c =>
    if secrecy_player C x ask guess j second cs (drawn_point C a) (drawn_point C k) (drawn_point C c) then 1 else 0))))).
  { intros second. unfold world. rewrite count_zsums. change (draws C 3) with [o; o; o]. rewrite sums_app. cbn [zsums].
    transitivity (zsums [o] (fun a => zsums [o] (fun k => zsum (Z.to_nat o) (fun c => zsums (draws C (l - 1)) (fun cs =>
      if secrecy_player C x ask guess j second cs (drawn_point C (hd 0 a)) (drawn_point C (hd 0 k)) (drawn_point C c) then 1 else 0))))); [reflexivity|].
    rewrite zsums_swap. cbn [zsums hd]. apply zsum_ext. intros k _. rewrite <- zsum_zsums. apply zsum_ext. intros a _. rewrite <- zsum_zsums. apply zsum_ext. intros c _. reflexivity. }
  rewrite !W, zsum_sub. replace (tuples (draws C l)) with (o * tuples (draws C (l - 1))).
  2:{ replace l with (1 + (l - 1))%nat at 2 by lia. reflexivity. }
  replace ((2 * o + 1) * (o * tuples (draws C (l - 1)))) with (Z.of_nat (Z.to_nat o) * (tuples (draws C (l - 1)) * (2 * o + 1))) by (rewrite Z2Nat.id by lia; ring).
  apply zsum_abs. intros k _. rewrite zsums_sub. rewrite <- zsums_const by (unfold draws; apply L_HideMask.Forall_repeat; lia). apply zsums_abs_le. intros cs _.
  unfold secrecy_player. fold (joint (drawn_point C k)). set (pk := joint (drawn_point C k)). set (before := talk C pk ask false [] (firstn j cs)).
  apply (noise_close x (fun ct => if guess pk (talk C pk ask true (before ++ [ct]) (skipn j cs)) then 1 else 0) (chosen C false (ask pk before)) (chosen C true (ask pk before)) Hx).
  intros z. destruct (guess _ _); lia.
Qed.
Lemma turn j : (j < l)%nat -> o * Z.abs (mixed (S j) - mixed j) <= ddh_gap C (draws C (l - 1)) (secrecy_player C x ask guess j false) + ddh_gap C (draws C (l - 1)) (secrecy_player C x ask guess j true) + (2 * o + 1) * tuples (draws C l).
Proof.
  intros Hj. pose proof (order_gt1 C L) as N1. pose proof (turn_real j false Hj) as R0. pose proof (turn_real j true Hj) as R1. cbv beta iota in R0, R1. pose proof (turn_random j Hj) as R. cbv zeta in R.
  unfold ddh_gap. rewrite <- R0, <- R1. match type of R with Z.abs (?a - ?b) <= _ => set (W0 := a) in *; set (W1 := b) in * end. clear R0 R1.
  replace (o * Z.abs (mixed (S j) - mixed j)) with (Z.abs (o * mixed (S j) - o * mixed j)) by (rewrite <- Z.mul_sub_distr_l, Z.abs_mul, (Z.abs_eq o) by lia; reflexivity). lia.
Qed.
Lemma turns j : (j <= l)%nat -> o * Z.abs (mixed j - mixed 0) <=
  zsum j (fun j => ddh_gap C (draws C (l - 1)) (secrecy_player C x ask guess (Z.to_nat j) false) + ddh_gap C (draws C (l - 1)) (secrecy_player C x ask guess (Z.to_nat j) true)) + Z.of_nat j * ((2 * o + 1) * tuples (draws C l)).
Proof.
  intros Hj. pose proof (order_gt1 C L) as N1. induction j as [|j IH]; [rewrite Z.sub_diag; cbn; lia|]. specialize (IH ltac:(lia)). pose proof (turn j ltac:(lia)) as T. cbn [zsum]. rewrite Nat2Z.id.
  assert (Ab : Z.abs (mixed (S j) - mixed 0) <= Z.abs (mixed (S j) - mixed j) + Z.abs (mixed j - mixed 0)) by lia.
  apply (Z.mul_le_mono_nonneg_l _ _ o) in Ab; [|lia]. rewrite Nat2Z.inj_succ. lia.
Qed.
Lemma all_turns : o * Z.abs (mixed l - mixed 0) <= secrecy_total C x ask guess l + Z.of_nat l * ((2 * o + 1) * tuples (draws C l)).
Proof. apply turns. lia. Qed.
End S.
