(** The hybrid argument for a list of ciphertexts: encryptions of given values against encryptions of random numbers. *)
From Coq Require Import Znumtheory.
From Verif Require Import Base M_BigNum M_Num M_DJ M_Paillier S_Paillier S_HideSum L_Mod L_NT L_Paillier L_PaillierKey S_Hide L_Hide L_HideKey L_HideMix L_HideView S_Ddh L_Ddh S_ClientView S_Dcr L_DcrUnits.

(** A pair of draws taken out of a list of draws and put in front. *)
Lemma count_front x u P Q f g : (forall p a c q, drawn P p -> drawn Q q -> 0 <= a < x -> 0 <= c < u -> f (p ++ a :: c :: q) = g (a :: c :: p ++ q)) ->
  count (P ++ [x; u] ++ Q) f = count ([x; u] ++ P ++ Q) g.
Proof.
  intros H. rewrite !count_zsums. set (F := fun ds : list Z => if f ds then 1 else 0). set (G := fun ds : list Z => if g ds then 1 else 0). rewrite !sums_app.
  rewrite (zsums_ext P _ (fun p => zsums [x; u] (fun ac => zsums Q (fun q => F (p ++ ac ++ q))))) by (intros p _; rewrite sums_app; reflexivity).
  rewrite zsums_swap. cbn [zsums]. apply zsum_ext. intros a Ha. apply zsum_ext. intros c Hc. rewrite sums_app. apply zsums_ext. intros p Hp. apply zsums_ext. intros q Hq.
  unfold F, G. cbn [app]. rewrite (H p a c q) by (assumption || lia). reflexivity.
Qed.
Lemma zsum_swap n m f : zsum n (fun a => zsum m (fun b => f a b)) = zsum m (fun b => zsum n (fun a => f a b)).
Proof.
  assert (E : forall k, zsum k (fun _ => 0) = 0) by (induction k; cbn [zsum]; lia).
  induction n as [|n IH]; cbn [zsum]; [rewrite E; reflexivity|]. rewrite IH. clear IH E. induction m as [|m IH]; cbn [zsum]; lia.
Qed.

Section H.
Variable isp : Z -> bool.
Variable flag : bool.
Variables p q : Z.
Variable s : nat.
Variable sk : private_paillier.
Hypothesis Hp : safe_prime p.
Hypothesis Hq : safe_prime q.
Hypothesis Hs : (1 <= s)%nat.
Hypothesis Esk : private_create isp flag p q s = Ok sk.
Notation n := (p * q).
Notation N := ((p * q) ^ Z.of_nat s).
Notation M := ((p * q) ^ (Z.of_nat s + 1)).

Definition plain_ok (o : option Z) : Prop := match o with Some v => 0 <= v < N | None => True end.
Notation key_draws' := (key_draws p q s).
Notation cts3 := (row_ciphertexts flag sk).
(** The ciphertexts made with the public key, each from two draws. *)
Fixpoint cts2 (os : list (option Z)) (ds : list Z) : list Z :=
  match os, ds with o :: os', x :: u :: r => sealed n s (plain o u) x :: cts2 os' r | _, _ => [] end.
Definition is_unit (r : Z * Z) : bool := Z.gcd (fst r) n =? 1.

Lemma N_pos : 0 < N.
Proof. pose proof (safe_prime_facts p Hp) as (_ & ? & _). pose proof (safe_prime_facts q Hq) as (_ & ? & _). apply Z.pow_pos_nonneg; nia. Qed.
Lemma M_pos' : 0 < M.
Proof. pose proof (safe_prime_facts p Hp) as (_ & ? & _). pose proof (safe_prime_facts q Hq) as (_ & ? & _). apply Z.pow_pos_nonneg; nia. Qed.
Lemma rows_sum os : Forall plain_ok os -> forall F : list Z -> Z,
  zsums (key_draws' (length os)) (fun ds => F (cts3 os ds)) = zsums (row_draws n s (length os)) (fun ds => if forallb is_unit (pairs (length os) ds) then F (cts2 os ds) else 0).
Proof.
  pose proof N_pos as HN. intros Hos. induction Hos as [|o os Ho Hos IH]; intros F; [reflexivity|]. unfold key_draws, row_draws. cbn [length repeat concat]. rewrite !sums_app. cbn [zsums]. fold (key_draws p q s (length os)). fold (row_draws n s (length os)). cbn [app pairs row_ciphertexts cts2 forallb].
  set (T := fun c => zsums (row_draws n s (length os)) (fun ds => if forallb is_unit (pairs (length os) ds) then F (c :: cts2 os ds) else 0)).
  transitivity (zsum (Z.to_nat N) (fun u => zsum (Z.to_nat (p - 1)) (fun rp => zsum (Z.to_nat (q - 1)) (fun rq => match priv_encrypt flag sk (plain o u) rp rq with Ok c => T c | _ => 0 end)))).
  - rewrite (zsum_ext (Z.to_nat (p - 1)) _ (fun rp => zsum (Z.to_nat N) (fun u => zsum (Z.to_nat (q - 1)) (fun rq => match priv_encrypt flag sk (plain o u) rp rq with Ok c => T c | _ => 0 end)))).
    + apply zsum_swap.
    + intros rp _. etransitivity; [|apply (zsum_swap (Z.to_nat (q - 1)) (Z.to_nat N) (fun rq u => match priv_encrypt flag sk (plain o u) rp rq with Ok c => T c | _ => 0 end))]. apply zsum_ext. intros rq _. apply zsum_ext. intros u Hu. rewrite Z2Nat.id in Hu by lia.
      rewrite (priv_encrypt_sealed isp flag p q s sk Hp Hq Hs Esk) by (destruct o; [exact Ho|exact Hu]). unfold T. exact (IH (fun l => F (sealed n s (plain o u) (join p q (pc_g (priv_p sk) ^ exponent p rp mod p) (pc_g (priv_q sk) ^ exponent q rq mod q)) :: l))).
  - etransitivity; [|apply (zsum_swap (Z.to_nat N) (Z.to_nat n))]. apply zsum_ext. intros u Hu. rewrite Z2Nat.id in Hu by lia. rewrite (units_sum isp flag p q s sk Hp Hq Hs Esk) by (destruct o; [exact Ho|exact Hu]).
    apply zsum_ext. intros x _. unfold is_unit at 1. cbn [fst]. destruct (Z.gcd x n =? 1); cbn [andb]; [reflexivity|]. symmetry.
    transitivity (zsums (row_draws n s (length os)) (fun _ => 0)); [|generalize (row_draws n s (length os)) as l; induction l as [|b l IHl]; [reflexivity|]; cbn [zsums]; rewrite (zsum_ext _ _ (fun _ => 0)) by (intros; exact IHl); generalize (Z.to_nat b); intros m; induction m; cbn [zsum]; lia].
    apply zsums_ext. reflexivity.
Qed.

(** ** The hybrid *)
Variable extra : list Z.
Variable vs : list Z.
Variable observer : list Z -> list Z -> bool.
Hypothesis Hvs : Forall (fun v => 0 <= v < N) vs.
Notation l := (length vs).
Notation k := (length extra).
Definition upto (j : nat) : list (option Z) := map Some (firstn j vs) ++ repeat None (l - j).
Definition hyb (j : nat) : Z := count (extra ++ key_draws' l) (fun ds => observer (firstn k ds) (cts3 (upto j) (skipn k ds))).

Lemma upto_len j : (j <= l)%nat -> length (upto j) = l.
Proof. intros H. unfold upto. rewrite app_length, map_length, firstn_length, repeat_length. lia. Qed.
Lemma upto_ok j : Forall plain_ok (upto j).
Proof.
  unfold upto. apply Forall_app. split; [|apply Forall_forall; intros x Hx; apply repeat_spec in Hx; subst; exact I].
  apply Forall_map. rewrite Forall_forall in *. intros x Hx. cbn. apply Hvs. rewrite <- (firstn_skipn j vs). apply in_or_app. left. exact Hx.
Qed.
Lemma firstn_exact {A} (a b : list A) : firstn (length a) (a ++ b) = a.
Proof. rewrite firstn_app, Nat.sub_diag, firstn_all, firstn_O, app_nil_r. reflexivity. Qed.
Lemma skipn_exact {A} (a b : list A) : skipn (length a) (a ++ b) = b.
Proof. rewrite skipn_app, Nat.sub_diag, skipn_all. reflexivity. Qed.
Lemma hyb_units j : (j <= l)%nat -> hyb j = count (extra ++ row_draws n s l) (fun ds => forallb is_unit (pairs l (skipn k ds)) && observer (firstn k ds) (cts2 (upto j) (skipn k ds))).
Proof.
  intros Hj. unfold hyb. rewrite !count_zsums, !sums_app. apply zsums_ext. intros e He. apply drawn_len in He.
  pose proof (rows_sum (upto j) (upto_ok j) (fun cs => if observer e cs then 1 else 0)) as R. rewrite (upto_len j Hj) in R.
  rewrite (zsums_ext (key_draws' l) _ (fun ds => if observer e (cts3 (upto j) ds) then 1 else 0)) by (intros ds _; rewrite <- He, firstn_exact, skipn_exact; reflexivity).
  rewrite R. apply zsums_ext. intros ds _. rewrite <- He, firstn_exact, skipn_exact. destruct (forallb is_unit (pairs l ds)); reflexivity.
Qed.

Lemma cts2_app a b ds r : length ds = (2 * length a)%nat -> cts2 (a ++ b) (ds ++ r) = cts2 a ds ++ cts2 b r.
Proof.
  revert ds. induction a as [|o a IH]; intros ds E; [destruct ds; [reflexivity|cbn in E; lia]|]. destruct ds as [|x [|u ds]]; [cbn in E; lia..|]. cbn [app cts2]. f_equal. apply IH. cbn in E. lia.
Qed.
Lemma cts2_values ws : forall ds, length ds = (2 * length ws)%nat -> cts2 (map Some ws) ds = map (fun vr => sealed n s (fst vr) (fst (snd vr))) (combine ws (pairs (length ws) ds)).
Proof. induction ws as [|w ws IH]; intros ds E; [reflexivity|]. destruct ds as [|x [|u ds]]; [cbn in E; lia..|]. cbn [map length pairs combine cts2 fst snd plain]. f_equal. apply IH. cbn in E. lia. Qed.
Lemma cts2_random i : forall ds, cts2 (repeat None i) ds = map (fun r => sealed n s (snd r) (fst r)) (pairs i ds).
Proof. induction i as [|i IH]; intros ds; [reflexivity|]. destruct ds as [|x [|u ds]]; [reflexivity..|]. cbn [repeat pairs map cts2 fst snd plain]. f_equal. apply IH. Qed.
Lemma row_draws_app a b : row_draws n s (a + b) = row_draws n s a ++ row_draws n s b.
Proof. unfold row_draws. rewrite repeat_app, concat_app. reflexivity. Qed.
Lemma row_draws_len a : length (row_draws n s a) = (2 * a)%nat.
Proof. induction a as [|a IH]; [reflexivity|]. unfold row_draws in *. cbn [repeat concat app length]. rewrite IH. lia. Qed.
Lemma split_rows j : (j < l)%nat -> extra ++ row_draws n s l = (extra ++ row_draws n s j) ++ [n; N] ++ row_draws n s (l - 1 - j) /\
  extra ++ row_draws n s (l - 1) = (extra ++ row_draws n s j) ++ row_draws n s (l - 1 - j).
Proof.
  intros Hj. rewrite <- !app_assoc. split; f_equal.
  - replace l with (j + (1 + (l - 1 - j)))%nat at 1 by lia. rewrite !row_draws_app. reflexivity.
  - rewrite <- row_draws_app. f_equal. lia.
Qed.
(** The player's view. *)
Definition seen (j : nat) (e pj qj : list Z) (c : Z) : bool := forallb is_unit (pairs j pj) && forallb is_unit (pairs (l - 1 - j) qj) &&
  observer e (cts2 (map Some (firstn j vs)) pj ++ c :: cts2 (repeat None (l - 1 - j)) qj).
Lemma player_seen j e pj qj c : (j < l)%nat -> length e = k -> length pj = (2 * j)%nat -> length qj = (2 * (l - 1 - j))%nat ->
  dcr_player n s k vs j observer ((e ++ pj) ++ qj) c = seen j e pj qj (((1 + n) ^ nth j vs 0 * c) mod M).
Proof.
  intros Hj Ee Epj Eqj. unfold dcr_player, seen. rewrite <- app_assoc, <- Ee, firstn_exact, skipn_exact. rewrite (pairs_app j (l - 1)) by lia.
  rewrite forallb_app. f_equal. f_equal.
  assert (El : length (pairs j pj) = j) by (apply pairs_len; lia). set (Y := pairs (l - 1 - j) qj). pose proof (firstn_exact (pairs j pj) Y) as F1. pose proof (skipn_exact (pairs j pj) Y) as F2. rewrite El in F1, F2. rewrite F1, F2.
  assert (Ef : length (firstn j vs) = j) by (rewrite firstn_length; lia).
  rewrite cts2_values by (rewrite Ef; exact Epj). rewrite Ef, cts2_random. reflexivity.
Qed.
Lemma row_seen j e pj x u qj o : (j < l)%nat -> length e = k -> length pj = (2 * j)%nat -> length qj = (2 * (l - 1 - j))%nat ->
  forallb is_unit (pairs l (skipn k ((e ++ pj) ++ x :: u :: qj))) && observer (firstn k ((e ++ pj) ++ x :: u :: qj)) (cts2 (map Some (firstn j vs) ++ o :: repeat None (l - 1 - j)) (skipn k ((e ++ pj) ++ x :: u :: qj))) =
  (Z.gcd x n =? 1) && seen j e pj qj (sealed n s (plain o u) x).
Proof.
  intros Hj Ee Epj Eqj. rewrite <- app_assoc, <- Ee, firstn_exact, skipn_exact. rewrite (pairs_app j l) by lia. replace (l - j)%nat with (S (l - 1 - j)) by lia. cbn [pairs].
  rewrite forallb_app. cbn [forallb]. unfold is_unit at 2. cbn [fst]. rewrite cts2_app by (rewrite map_length, firstn_length; lia). cbn [cts2]. unfold seen.
  destruct (Z.gcd x n =? 1); cbn [andb]; [reflexivity|]. rewrite Bool.andb_false_r. reflexivity.
Qed.
Lemma seal_add v u x : 0 <= v -> 0 <= u -> ((1 + n) ^ v * sealed n s u x) mod M = sealed n s (v + u) x.
Proof. intros Hv Hu. pose proof M_pos'. unfold sealed. rewrite Zmult_mod_idemp_r. f_equal. rewrite Z.pow_add_r by assumption. ring. Qed.
Lemma seal_period v x : 0 <= v -> sealed n s (v mod N) x = sealed n s v x.
Proof.
  intros Hv. pose proof M_pos'. pose proof N_pos. pose proof (safe_prime_facts p Hp) as (_ & ? & _). pose proof (safe_prime_facts q Hq) as (_ & ? & _). unfold sealed. apply eqmod_eq; [assumption|]. apply eqmod_mul; [|reflexivity].
  pose proof (lift n s (1 + n) 1 ltac:(nia) ltac:(exists 1; ring)) as E. rewrite Z.pow_1_l in E by lia.
  assert (D : eqmod M ((1 + n) ^ v) ((1 + n) ^ (N * (v / N) + v mod N))) by (rewrite <- Z.div_mod by lia; reflexivity).
  assert (B : 0 <= v / N) by (apply Z.div_pos; lia). assert (B' : 0 <= v mod N) by (apply Z.mod_pos_bound; lia).
  rewrite D, (Z.pow_add_r (1 + n) (N * (v / N))), (Z.pow_mul_r (1 + n) N) by (try apply Z.mul_nonneg_nonneg; lia). rewrite E, Z.pow_1_l, Z.mul_1_l by exact B. reflexivity.
Qed.
Lemma drawn_parts j pj qj : drawn (extra ++ row_draws n s j) pj -> drawn (row_draws n s (l - 1 - j)) qj ->
  exists e r, pj = e ++ r /\ length e = k /\ length r = (2 * j)%nat /\ length qj = (2 * (l - 1 - j))%nat.
Proof.
  intros H1 H2. apply Forall2_app_inv_l in H1. destruct H1 as (e & r & He & Hr & E). exists e, r. split; [exact E|]. apply drawn_len in He, Hr, H2. rewrite row_draws_len in Hr, H2. auto.
Qed.
Lemma upto_step j : (j < l)%nat -> upto (S j) = map Some (firstn j vs) ++ Some (nth j vs 0) :: repeat None (l - 1 - j) /\ upto j = map Some (firstn j vs) ++ None :: repeat None (l - 1 - j).
Proof.
  intros Hj. unfold upto. split.
  - replace (firstn (S j) vs) with (firstn j vs ++ [nth j vs 0]); [rewrite map_app, <- app_assoc; cbn [map app]; do 2 f_equal; f_equal; lia|].
    clear -Hj. revert j Hj. induction vs as [|v r IH]; intros j Hj; [cbn in Hj; lia|]. destruct j as [|j]; [reflexivity|]. cbn [firstn nth app]. f_equal. apply IH. cbn in Hj. lia.
  - replace (l - j)%nat with (S (l - 1 - j)) by lia. reflexivity.
Qed.
Lemma nth_value j : (j < l)%nat -> 0 <= nth j vs 0 < N.
Proof. intros H. rewrite Forall_forall in Hvs. apply Hvs, nth_In, H. Qed.
Lemma step_value j : (j < l)%nat -> hyb (S j) = count ([n; N] ++ extra ++ row_draws n s (l - 1)) (fun ds => match ds with
  | x :: u :: cs => (Z.gcd x n =? 1) && dcr_player n s k vs j observer cs (sealed n s 0 x) | _ => false end).
Proof.
  intros Hj. rewrite hyb_units by lia. destruct (split_rows j Hj) as [-> ->]. apply count_front. intros pj x u qj Hpj Hqj _ _. destruct (drawn_parts j pj qj Hpj Hqj) as (e & r & -> & Ee & Er & Eq).
  rewrite (proj1 (upto_step j Hj)), row_seen by assumption. rewrite player_seen by assumption. rewrite seal_add by (try lia; apply (nth_value j Hj)). rewrite Z.add_0_r. reflexivity.
Qed.
Lemma step_noise j : (j < l)%nat -> hyb j = count ([n; N] ++ extra ++ row_draws n s (l - 1)) (fun ds => match ds with
  | x :: u :: cs => (Z.gcd x n =? 1) && dcr_player n s k vs j observer cs (sealed n s u x) | _ => false end).
Proof.
  intros Hj. pose proof N_pos as HN. pose proof (nth_value j Hj) as Hv. rewrite hyb_units by lia. destruct (split_rows j Hj) as [-> ->].
  rewrite (count_front n N (extra ++ row_draws n s j) (row_draws n s (l - 1 - j)) _ (fun ds => match ds with x :: u :: cs => (Z.gcd x n =? 1) && seen j (firstn k cs) (firstn (2 * j) (skipn k cs)) (skipn (2 * j) (skipn k cs)) (sealed n s u x) | _ => false end)).
  2:{ intros pj x u qj Hpj Hqj _ _. destruct (drawn_parts j pj qj Hpj Hqj) as (e & r & -> & Ee & Er & Eq).
      rewrite (proj2 (upto_step j Hj)), row_seen by assumption. rewrite <- app_assoc, <- Ee, firstn_exact, skipn_exact, <- Er, firstn_exact, skipn_exact. reflexivity. }
  rewrite !count_zsums, !(sums_app [n; N]). cbn [zsums app]. apply zsum_ext. intros x _.
  set (G := fun u => zsums ((extra ++ row_draws n s j) ++ row_draws n s (l - 1 - j)) (fun cs => if (Z.gcd x n =? 1) && seen j (firstn k cs) (firstn (2 * j) (skipn k cs)) (skipn (2 * j) (skipn k cs)) (sealed n s u x) then 1 else 0)).
  transitivity (zsum (Z.to_nat N) (fun u => G ((nth j vs 0 + u) mod N))).
  - symmetry. apply zsum_rename.
    + intros d _. rewrite Z2Nat.id by lia. apply Z.mod_pos_bound. lia.
    + intros d e Hd He E. rewrite Z2Nat.id in Hd, He by lia. apply mod_eqmod_iff in E; [|lia]. apply (eqmod_small N); [lia|lia|]. destruct E as [z Hz]. exists z. lia.
  - apply zsum_ext. intros u Hu. rewrite Z2Nat.id in Hu by lia. unfold G. apply zsums_ext. intros cs Hcs. apply Forall2_app_inv_l in Hcs. destruct Hcs as (pj & qj & Hpj & Hqj & ->). destruct (drawn_parts j pj qj Hpj Hqj) as (e & r & -> & Ee & Er & Eq).
    rewrite player_seen by assumption. rewrite <- app_assoc, <- Ee, firstn_exact, skipn_exact, <- Er, firstn_exact, skipn_exact. rewrite seal_add, seal_period by lia. reflexivity.
Qed.
Theorem dcr_hybrid : Z.abs (count (extra ++ key_draws' l) (fun ds => observer (firstn k ds) (cts3 (map Some vs) (skipn k ds))) - count (extra ++ key_draws' l) (fun ds => observer (firstn k ds) (cts3 (repeat None l) (skipn k ds)))) <= dcr_total n s extra vs observer.
Proof.
  assert (E1 : upto l = map Some vs) by (unfold upto; rewrite firstn_all, Nat.sub_diag; apply app_nil_r). assert (E0 : upto 0 = repeat None l) by (unfold upto; rewrite Nat.sub_0_r; reflexivity).
  rewrite <- E0, <- E1. fold (hyb l). fold (hyb 0). unfold dcr_total.
  assert (G : forall i, (i <= l)%nat -> Z.abs (hyb i - hyb 0) <= zsum i (fun j => dcr_gap n s (extra ++ row_draws n s (l - 1)) (dcr_player n s k vs (Z.to_nat j) observer))); [|apply G; lia].
  induction i as [|i IH]; intros Hi; [rewrite Z.sub_diag; cbn [zsum]; lia|]. cbn [zsum]. rewrite Nat2Z.id. specialize (IH ltac:(lia)).
  pose proof (step_value i ltac:(lia)) as V. pose proof (step_noise i ltac:(lia)) as R. unfold dcr_gap at 2. cbv zeta. rewrite <- V, <- R. lia.
Qed.
End H.
