(** Lemmas for the forged proofs of parameter generation: one string of equal bytes is cut into pieces in a way that suits the challenge. *)
From Verif Require Import Base M_BigNum S_BigNum L_BigNum M_Num L_Num M_Pedersen S_Pedersen L_Pedersen L_VRF P_Pedersen.

(** Lengths of the pieces: 2 for a challenge bit 0 (3 for the first [j] of them), 1 for a bit 1 (longer by the entries of [ex], as far as they go). *)
Fixpoint cut (cs : list bool) (j : nat) (ex : list nat) : list nat :=
  match cs with
  | [] => []
  | true :: r => (match ex with [] => 1 | e :: _ => 1 + e end)%nat :: cut r j (tl ex)
  | false :: r => (match j with O => 2 | S _ => 3 end)%nat :: cut r (pred j) ex
  end.
Definition ones (cs : list bool) : nat := length (filter (fun b => b) cs).
Definition total (l : list nat) : nat := fold_right Nat.add 0%nat l.

Lemma ones_le cs : (ones cs <= length cs)%nat.
Proof. induction cs as [|[|] r IH]; unfold ones in *; cbn [filter length] in *; lia. Qed.
Lemma cut_length cs : forall j ex, length (cut cs j ex) = length cs.
Proof. induction cs as [|[|] r IH]; intros j ex; cbn [cut length]; [reflexivity| |]; rewrite IH; reflexivity. Qed.
Lemma cut_total cs : forall j ex, (j <= length cs - ones cs)%nat -> (length ex <= ones cs)%nat ->
  total (cut cs j ex) = (2 * (length cs - ones cs) + ones cs + j + total ex)%nat.
Proof.
  induction cs as [|b r IH]; intros j ex Hj He.
  - unfold ones in *. cbn [filter length cut] in *. destruct ex; [|cbn [length] in He; lia]. unfold total. cbn [fold_right]. lia.
  - pose proof (ones_le r) as Ho. destruct b.
    + assert (E1 : ones (true :: r) = S (ones r)) by reflexivity. rewrite E1 in *. cbn [length cut] in *. unfold total in *. cbn [fold_right].
      destruct ex as [|e ex]; cbn [tl fold_right length] in *; rewrite IH by (cbn [length]; lia); cbn [fold_right]; lia.
    + assert (E1 : ones (false :: r) = ones r) by reflexivity. rewrite E1 in *. cbn [length cut] in *. unfold total in *. cbn [fold_right].
      destruct j; cbn [pred]; rewrite IH by lia; lia.
Qed.
(** Which pieces occur. *)
Definition good_piece (b : bool) (l : nat) : Prop := if b then (l = 1 \/ l = 4 \/ l = 5 \/ l = 6)%nat else (l = 2 \/ l = 3)%nat.
Lemma cut_good cs : forall j ex, Forall (fun e => e = 3 \/ e = 4 \/ e = 5)%nat ex -> Forall2 good_piece cs (cut cs j ex).
Proof.
  induction cs as [|b r IH]; intros j ex He; cbn [cut]; [constructor|]. destruct b; constructor.
  - cbn [good_piece]. destruct ex as [|e ex]; [tauto|]. apply Forall_inv in He. lia.
  - apply IH. destruct ex as [|e ex]; [constructor|exact (Forall_inv_tail He)].
  - cbn [good_piece]. destruct j; lia.
  - apply IH. exact He.
Qed.
Lemma total_repeat v n : total (repeat v n) = (n * v)%nat.
Proof. induction n as [|n IH]; unfold total in *; cbn [repeat fold_right]; [reflexivity|rewrite IH; lia]. Qed.
(** Four or more bits can always be served by pieces that add up to twice their number. *)
Lemma cut_exists cs : (4 <= length cs)%nat -> exists ls, Forall2 good_piece cs ls /\ total ls = (2 * length cs)%nat.
Proof.
  intros H4. pose proof (ones_le cs) as Ho. destruct (Nat.lt_ge_cases (ones cs) 3) as [Hs|Hl].
  - exists (cut cs (ones cs) []). split; [apply cut_good; constructor|]. rewrite cut_total by (cbn [length]; lia). unfold total. cbn [fold_right]. lia.
  - set (o := ones cs) in *. exists (cut cs 0 ((3 + o mod 3)%nat :: repeat 3%nat (o / 3 - 1))). pose proof (Nat.mod_upper_bound o 3 ltac:(lia)) as Hm.
    pose proof (Nat.div_mod o 3 ltac:(lia)) as Hd. assert (Hq : (1 <= o / 3)%nat) by (apply Nat.div_le_lower_bound; lia). split.
    + apply cut_good. constructor; [lia|]. apply Forall_forall. intros x Hx. apply repeat_spec in Hx. lia.
    + rewrite cut_total; [|lia|cbn [length]; rewrite repeat_length; fold o; lia]. fold o. change (total (?a :: ?r)) with (a + total r)%nat. rewrite total_repeat. lia.
Qed.

Lemma concat_repeat {A} (b : A) ls : concat (map (fun l => repeat b l) ls) = repeat b (total ls).
Proof. induction ls as [|l ls IH]; [reflexivity|]. cbn [map concat]. rewrite IH. change (total (l :: ls)) with (l + total ls)%nat. rewrite repeat_app. reflexivity. Qed.
Lemma strip_repeat b l : b <> x00 -> strip_zeros (repeat b l) = repeat b l.
Proof. intros H. destruct l; [reflexivity|]. cbn [repeat strip_zeros]. destruct b; try reflexivity. contradiction. Qed.
Lemma mapM_pieces b ls : b <> x00 -> mapM to_bytes (map (fun l => of_bytes (repeat b l)) ls) = Ok (map (fun l => repeat b l) ls).
Proof.
  intros Hb. induction ls as [|l ls IH]; [reflexivity|]. cbn [map mapM]. rewrite to_bytes_of_bytes, strip_repeat by exact Hb. cbn [bind]. rewrite IH. reflexivity.
Qed.
Lemma nth_forall2 {A B} (R : A -> B -> Prop) xs ys : Forall2 R xs ys -> forall i x y, nth_error xs i = Some x -> nth_error ys i = Some y -> R x y.
Proof. induction 1 as [|x y xs ys Hxy H IH]; intros [|i] x' y' Hx Hy; cbn in *; try discriminate; [congruence|eauto]. Qed.
Lemma good_length cs ls : Forall2 good_piece cs ls -> length cs = length ls.
Proof. induction 1; cbn [length]; congruence. Qed.
