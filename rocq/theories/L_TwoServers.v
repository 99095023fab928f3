(** Two servers that differ in what the client cannot see (for C82). *)
From Coq Require Import Permutation.
From Verif Require Import Base M_BigNum L_BigNum M_Num M_EC L_EC M_Group M_Paillier S_Paillier L_Paillier L_PaillierKey P_Paillier M_Protocol S_Protocol L_Protocol S_Hide L_Hide L_HideMix L_HideView S_HideSum L_HideReply L_HideLeak
  L_Mod S_Ddh L_Ddh P_Ddh S_Dcr L_DcrUnits S_ClientView L_Dcr L_ClientView S_ServerView L_ServerView.

(** ** Draws in another order *)
Lemma sum_regroup b m (F : list Z -> list Z -> Z) : forall n, zsums (repeat b (2 * n + m)) (fun ds => F (map fst (pairs n ds) ++ skipn (2 * n) ds) (map snd (pairs n ds))) =
  zsums (repeat b n) (fun c => zsums (repeat b (n + m)) (fun a => F a c)).
Proof.
  intros n. revert F. induction n as [|n IH]; intros F; [reflexivity|]. replace (2 * S n + m)%nat with (S (S (2 * n + m))) by lia. cbn [repeat zsums Nat.add]. replace (2 * S n)%nat with (S (S (2 * n))) by lia.
  cbn [pairs map fst snd skipn app]. rewrite zsum_swap. apply zsum_ext. intros c _.
  rewrite (zsum_ext _ _ (fun a => zsums (repeat b n) (fun c' => zsums (repeat b (n + m)) (fun a' => F (a :: a') (c :: c'))))) by (intros a _; apply (IH (fun x y => F (a :: x) (c :: y)))).
  apply zsum_zsums.
Qed.
Lemma lookup_perm {A} (o : A) x l l' : Permutation l l' -> NoDup (map fst l) -> lookup o x l = lookup o x l'.
Proof.
  induction 1 as [|[y a] l l' P IH|[y a] [z c] l|l l' l'' P1 IH1 P2 IH2]; intros ND; [reflexivity| | |].
  - cbn [map fst lookup] in *. inversion ND; subst. destruct (bytes_eqb x y); [reflexivity|apply IH; assumption].
  - cbn [map fst lookup] in *. destruct (bytes_eqb x y) eqn:E1, (bytes_eqb x z) eqn:E2; try reflexivity. apply bytes_eqb_eq in E1, E2. subst. exfalso. inversion ND as [|? ? N _]; subst. apply N. left. reflexivity.
  - rewrite IH1 by exact ND. apply IH2. apply (Permutation_NoDup (Permutation_map fst P1) ND).
Qed.
Lemma lookup_own {A} (o : A) ids : NoDup ids -> forall t, length t = length ids -> in_order o ids ids t = t.
Proof.
  unfold in_order. induction 1 as [|x ids N _ IH]; intros [|a t] E; try discriminate; [reflexivity|]. cbn [map combine lookup]. rewrite bytes_eqb_refl. f_equal.
  transitivity (map (fun y => lookup o y (combine ids t)) ids); [|apply IH; cbn in E; lia]. apply map_ext_in. intros y Hy. destruct (bytes_eqb y x) eqn:E1; [|reflexivity]. apply bytes_eqb_eq in E1. subst. contradiction.
Qed.
Lemma combine_fst {A} (ids : list bytes) : forall (t : list A), length t = length ids -> map fst (combine ids t) = ids.
Proof. induction ids as [|x ids IH]; intros [|a t] E; try discriminate; [reflexivity|]. cbn [combine map fst]. f_equal. apply IH. cbn in E. lia. Qed.
Lemma sum_perm_ids {A} (f : Z -> A) b ids ids' : Permutation ids ids' -> forall G : list (bytes * A) -> Z, (forall l l', Permutation l l' -> NoDup (map fst l) -> G l = G l') -> NoDup ids ->
  zsums (repeat b (length ids)) (fun a => G (combine ids (map f a))) = zsums (repeat b (length ids')) (fun a => G (combine ids' (map f a))).
Proof.
  induction 1 as [|x l l' P IH|x y l|l l' l'' P1 IH1 P2 IH2]; intros G HG ND; [reflexivity| | |].
  - cbn [length repeat zsums map combine]. apply zsum_ext. intros d _.
    inversion ND as [|? ? N1 N2]; subst.
    assert (W : forall ids0, Permutation l ids0 -> zsums (repeat b (length ids0)) (fun a => G ((x, f d) :: combine ids0 (map f a))) = zsums (repeat b (length ids0)) (fun a => (fun t => if in_dec bytes_dec x (map fst t) then 0 else G ((x, f d) :: t)) (combine ids0 (map f a)))).
    { intros ids0 P0. apply zsums_ext. intros a Ha. cbv beta. destruct (in_dec bytes_dec x (map fst (combine ids0 (map f a)))) as [I|I]; [|reflexivity]. exfalso. rewrite combine_fst in I by (apply drawn_len in Ha; rewrite repeat_length in Ha; rewrite map_length; exact Ha).
      apply N1. apply (Permutation_in _ (Permutation_sym P0)), I. }
    rewrite (W l (Permutation_refl _)), (W l' P). apply (IH (fun t => if in_dec bytes_dec x (map fst t) then 0 else G ((x, f d) :: t))); [|exact N2]. intros t t' Pt Nt. destruct (in_dec bytes_dec x (map fst t)) as [I|I], (in_dec bytes_dec x (map fst t')) as [I'|I']; try reflexivity.
    + exfalso. apply I'. apply (Permutation_in _ (Permutation_map fst Pt)), I.
    + exfalso. apply I. apply (Permutation_in _ (Permutation_sym (Permutation_map fst Pt))), I'.
    + apply HG; [constructor; exact Pt|]. cbn [map fst]. constructor; assumption.
  - cbn [length repeat zsums map combine]. rewrite zsum_swap. apply zsum_ext. intros d Hd. apply zsum_ext. intros e He. apply zsums_ext. intros a Ha. apply HG; [apply perm_swap|]. cbn [map fst].
    rewrite combine_fst; [|apply drawn_len in Ha; rewrite repeat_length in Ha; rewrite map_length; exact Ha]. exact ND.
  - rewrite IH1 by assumption. apply IH2; [exact HG|]. apply (Permutation_NoDup P1 ND).
Qed.
Lemma sum_in_order {A} (o : A) (f : Z -> A) b ids ids' (F : list A -> Z) : Permutation ids ids' -> NoDup ids ->
  zsums (repeat b (length ids')) (fun a => F (in_order o ids ids' (map f a))) = zsums (repeat b (length ids)) (fun a => F (map f a)).
Proof.
  intros P ND. symmetry. transitivity (zsums (repeat b (length ids)) (fun a => F (in_order o ids ids (map f a)))).
  - apply zsums_ext. intros a Ha. rewrite lookup_own; [reflexivity|exact ND|]. rewrite map_length. apply drawn_len in Ha. rewrite repeat_length in Ha. exact Ha.
  - apply (sum_perm_ids f b ids ids' P (fun l => F (map (fun x => lookup o x l) ids))); [|exact ND]. intros l l' Pl Nl. f_equal. apply map_ext. intros x. apply lookup_perm; assumption.
Qed.

(** ** Replies *)
Section Replies.
Variable isp : Z -> bool.
Variable flag : bool.
Variables p q : Z.
Hypothesis Hp : safe_prime p.
Hypothesis Hq : safe_prime q.
Hypothesis Hp5 : 5 < p.
Hypothesis Hq5 : 5 < q.
Hypothesis Hpq : p <= 2 * q.
Hypothesis Hqp : q <= 2 * p.
Variable sk : private_paillier.
Hypothesis Esk : private_create isp flag p q 2 = Ok sk.
Variable gen : list Z.
Variable pk : public_paillier.
Hypothesis Epk : public_create flag (p * q) 2 gen = Ok pk.

Lemma cts_facts vs vd : Forall (fun v => 0 <= v < (p * q) ^ 2) vs -> (3 * length vs <= length vd)%nat ->
  Forall2 (fun v c => priv_decrypt sk c = Ok v /\ 0 <= c) vs (row_ciphertexts flag sk (map Some vs) vd) /\ Forall2 (fun l c => marked p q l c) (row_exponents p q vd (length vs)) (row_ciphertexts flag sk (map Some vs) vd).
Proof.
  intros H. revert vd. induction H as [|v vs Hv _ IH]; intros vd Ld; [split; constructor|]. destruct vd as [|a [|b [|e vd]]]; [cbn in Ld; lia..|]. cbn [map row_ciphertexts plain length row_exponents].
  destruct (IH vd ltac:(cbn in Ld; lia)) as [I1 I2]. destruct (C23_private_roundtrip isp flag p q 2 sk v a b Hp Hq ltac:(lia) Esk) as (c & Ec & Dc); [change (Z.of_nat 2) with 2; exact Hv|]. rewrite Ec.
  split; constructor; try assumption.
  - split; [exact Dc|]. destruct (Z_lt_dec c 0) as [N|N]; [|lia]. exfalso. unfold priv_decrypt, is_non_negative in Dc. destruct (Z.ltb_spec c 0); [discriminate Dc|lia].
  - destruct (client_ciphertext isp flag p q 2 sk v a b c Hp Hq ltac:(lia) Esk Ec) as (R1 & R2 & N1 & N2). split; [|tauto]. unfold jacobi_one. rewrite R1, R2, Z.even_add. reflexivity.
Qed.
Lemma common_rel (R : Z -> Z -> Prop) (xs : list bytes) ys : forall ls cs, Forall2 R ls cs -> Forall2 R (map snd (common (combine xs ls) ys)) (map snd (common (combine xs cs) ys)).
Proof.
  unfold common. induction xs as [|x xs IH]; intros ls cs F; [constructor|]. destruct F as [|l c ls cs H F]; [constructor|]. cbn [combine filter fst]. destruct (in_dec bytes_dec x ys); cbn [map snd]; [constructor; [exact H|]|]; apply IH, F.
Qed.
Lemma product_decrypts vs cts d : Forall2 (fun v c => priv_decrypt sk c = Ok v /\ 0 <= c) vs cts -> 0 <= d < p * q ->
  priv_decrypt sk ((pub_base pk ^ d * fold_right Z.mul 1 cts) mod (p * q) ^ 3) = Ok (S_Protocol.zsum vs mod (p * q) ^ 2).
Proof.
  intros F Hd. set (es := map (fun c => {| el := []; ad := wire c |}) cts).
  assert (Fl : Forall2 (holds sk) vs es). { unfold es. clear - F. induction F as [|v c vs cs [D N] _ IH]; constructor; [|exact IH]. unfold holds. cbn [ad]. unfold wire. destruct (to_bytes_of c N) as (b & -> & V). rewrite V. exact D. }
  assert (Ep : product es = fold_right Z.mul 1 cts). { unfold es. clear - F. induction F as [|v c vs cs [_ N] _ IH]; [reflexivity|]. cbn [map product fold_right ad]. unfold product in IH. rewrite IH. f_equal. unfold wire. destruct (to_bytes_of c N) as (b & -> & V). exact V. }
  pose proof (safe_prime_facts p Hp) as (_ & _ & Op). pose proof (safe_prime_facts q Hq) as (_ & _ & Oq). assert (Hn : 1 < p * q) by nia. assert (On : Z.odd (p * q) = true) by (rewrite Z.odd_mul, Op, Oq; reflexivity).
  assert (MP : 0 < (p * q) ^ 2) by (apply Z.pow_pos_nonneg; lia). assert (M0 : 0 < (p * q) ^ 3) by (apply Z.pow_pos_nonneg; lia).
  destruct (C24_public_roundtrip isp flag p q 2 sk gen pk 0 d Hp Hq ltac:(lia) Esk Epk) as (z & Ez & Dz); [change (Z.of_nat 2) with 2; lia|].
  destruct (add_all_dec (fun x => x) isp flag p q Hp Hq sk Esk pk gen Epk es vs z 0 Fl Dz ltac:(lia)) as (c' & Ec' & Dc').
  pose proof (public_inv flag (p * q) 2 _ pk Hn On Epk) as U. rewrite (pub_encrypt_zero flag (p * q) 2 pk _ U Hd ltac:(lia)) in Ez. change (Z.of_nat 2 + 1) with 3 in Ez.
  assert (Ez' : z = pub_base pk ^ d mod (p * q) ^ 3) by congruence.
  rewrite (add_all_value (p * q) 2 pk U) in Ec' by (rewrite Ez'; change (Z.of_nat 2 + 1) with 3; apply Z.mod_pos_bound; exact M0). change (Z.of_nat 2 + 1) with 3 in Ec'. rewrite Ez', Z.mul_mod_idemp_l, Ep in Ec' by lia.
  assert (Q : (pub_base pk ^ d * fold_right Z.mul 1 cts) mod (p * q) ^ 3 = c') by congruence. rewrite Q, Dc'. rewrite Z.add_0_l. reflexivity.
Qed.
Lemma product_marked ls cts d : Forall2 (fun l c => marked p q l c) ls cts -> 0 <= d -> jacobi_one p q ((pub_base pk ^ d * fold_right Z.mul 1 cts) mod (p * q) ^ 3) = Z.even (S_Protocol.zsum ls).
Proof.
  intros F Hd.
  assert (MA : marked p q (S_Protocol.zsum ls) (fold_right Z.mul 1 cts)) by (clear - F Hp Hq; induction F as [|l c ls cs H _ IH]; cbn [S_Protocol.zsum fold_right]; [exact (marked_one p q Hp Hq)|exact (marked_mul p q Hp Hq _ _ _ _ H IH)]).
  pose proof (safe_prime_facts p Hp) as (_ & _ & Op). pose proof (safe_prime_facts q Hq) as (_ & _ & Oq). assert (Hn : 1 < p * q) by nia. assert (On : Z.odd (p * q) = true) by (rewrite Z.odd_mul, Op, Oq; reflexivity).
  destruct (public_base flag (p * q) 2 _ pk Hn On Epk) as (x & _ & Gx & Hb). assert (Dn : (p * q | (p * q) ^ 3)) by (exists ((p * q) ^ 2); ring).
  assert (MB : marked p q 0 (pub_base pk)).
  { apply (marked_eqmod p q Hp Hq 0 ((- (x * x)) ^ ((p * q) ^ Z.of_nat 2))).
    - symmetry. transitivity ((p * q - (x * x) mod (p * q)) ^ (p * q) ^ Z.of_nat 2); [apply (eqmod_divide _ _ _ _ Dn Hb)|]. rewrite minus_square. reflexivity.
    - apply (marked_pow p q Hp Hq); [apply (marked_minus_square p q Hp Hq); assumption|apply Z.pow_nonneg; lia]. }
  pose proof (marked_mul p q Hp Hq 0 _ _ _ (marked_pow p q Hp Hq _ d MB Hd) MA) as MM. rewrite Z.add_0_l in MM.
  apply (marked_eqmod p q Hp Hq _ _ ((pub_base pk ^ d * fold_right Z.mul 1 cts) mod (p * q) ^ 3)) in MM; [exact (proj1 MM)|].
  apply (eqmod_divide _ _ _ _ Dn). symmetry. apply eqmod_mod.
Qed.
(** Replies about two lists of common rows of the same length, sum and parity of exponents. *)
Lemma replies_close vs vs' ls ls' cts cts' x : relatively_prime_random gen (p * q) = Ok x -> Z.gcd (x * x - 1) (p * q) = 1 ->
  Forall2 (fun v c => priv_decrypt sk c = Ok v /\ 0 <= c) vs cts -> Forall2 (fun v c => priv_decrypt sk c = Ok v /\ 0 <= c) vs' cts' -> Forall2 (marked p q) ls cts -> Forall2 (marked p q) ls' cts' ->
  length vs = length vs' -> S_Protocol.zsum vs mod (p * q) ^ 2 = S_Protocol.zsum vs' mod (p * q) ^ 2 -> Z.even (S_Protocol.zsum ls) = Z.even (S_Protocol.zsum ls') ->
  forall test, Z.abs (S_Hide.count [p * q] (fun ds => test (reply_from (p * q) (pub_base pk) (nth 0 ds 0) cts)) - S_Hide.count [p * q] (fun ds => test (reply_from (p * q) (pub_base pk) (nth 0 ds 0) cts'))) <= p + q - 1.
Proof.
  intros Ex Gx F F' G G' El Es Ee test. assert (Hn : 0 < p * q) by nia.
  pose proof (two_products isp flag p q Hp Hq Hp5 Hq5 Hpq Hqp gen x pk Ex Gx Epk sk 0 0 (fold_right Z.mul 1 cts) (fold_right Z.mul 1 cts') _ (Z.le_refl 0) (Z.le_refl 0) Esk
    (product_decrypts vs cts 0 F ltac:(lia))) as T. rewrite Es in T. specialize (T (product_decrypts vs' cts' 0 F' ltac:(lia))).
  rewrite (product_marked ls cts 0 G), (product_marked ls' cts' 0 G') in T by lia. specialize (T Ee (Z.of_nat (length vs)) test). unfold reply_from. rewrite <- (Forall2_len _ _ _ F), <- (Forall2_len _ _ _ F'), <- El. exact T.
Qed.
End Replies.
