(** How often two identifiers have the same hash (for C82). *)
From Verif Require Import Base M_BigNum M_EC L_EC L_Mod S_Hide L_Hide L_HideMask L_HideMix L_HideView S_Ddh L_Ddh P_Ddh S_Dcr S_ClientView L_Dcr L_ClientView S_ServerView L_TwoServers.

Lemma zsum_at n u : zsum n (fun e => if e =? u then 1 else 0) <= 1.
Proof.
  assert (Z0 : forall k, Z.of_nat k <= u -> zsum k (fun e => if e =? u then 1 else 0) = 0).
  { induction k as [|k IH]; intros H; [reflexivity|]. cbn [zsum]. rewrite IH by lia. destruct (Z.eqb_spec (Z.of_nat k) u); [lia|reflexivity]. }
  induction n as [|n IH]; [cbn; lia|]. cbn [zsum]. destruct (Z.eqb_spec (Z.of_nat n) u) as [<-|]; [rewrite Z0 by lia; lia|lia].
Qed.

Section Collide.
Variable C : ec.
Hypothesis L : ec_laws C.
Notation b := (ec_order C - 1).

Lemma same_hash d e : 0 <= d < b -> 0 <= e < b -> hash_point C d = hash_point C e -> e = d \/ e = ec_order C - d - 2.
Proof.
  intros Hd He E. pose proof (gen_not_inf C L) as NG. unfold hash_point, even_one, drawn_point in E. set (s := sign C _) in E at 1. set (t := sign C (pmul C (e + 1) _)) in E. rewrite <- !(pmul_mul C L) in E. apply (pmul_inj C L _ _ _ NG) in E. destruct E as [z Hz].
  assert (S1 : s = 1 \/ s = -1) by apply sign_values. assert (S2 : t = 1 \/ t = -1) by apply sign_values.
  destruct S1 as [-> | ->], S2 as [-> | ->]; [left|right|right|left]; assert (B1 : -2 < z < 2) by nia; assert (z = 0 \/ z = 1 \/ z = -1) as [-> | [-> | ->]] by lia; lia.
Qed.
Lemma same_count d : 0 <= d < b -> count [b] (fun ds => negb (negb (bytes_eqb (ec_enc C (hash_point C d)) (ec_enc C (hash_point C (nth 0 ds 0)))))) <= 2.
Proof.
  intros Hd. pose proof (order_gt1 C L). cbn [count nth]. transitivity (zsum (Z.to_nat b) (fun e => (if e =? d then 1 else 0) + (if e =? ec_order C - d - 2 then 1 else 0))).
  - apply zsum_le. intros e He. rewrite Z2Nat.id in He by lia. rewrite Bool.negb_involutive. destruct (bytes_eqb _ _) eqn:E; [|destruct (e =? d), (e =? ec_order C - d - 2); lia]. apply bytes_eqb_eq in E.
    apply (enc_inj C L) in E; [|apply hash_point_not_inf; assumption..]. destruct (same_hash d e Hd He E) as [-> | ->]; rewrite Z.eqb_refl; destruct (_ =? _); lia.
  - pose proof (zsum_at (Z.to_nat b) d) as A1. pose proof (zsum_at (Z.to_nat b) (ec_order C - d - 2)) as A2.
    assert (forall k f g, zsum k (fun e => f e + g e) = zsum k f + zsum k g) as ->; [|lia]. clear. induction k as [|k IH]; intros f g; [reflexivity|]. cbn [zsum]. rewrite IH. lia.
Qed.
Lemma repeated_count N : b * count (repeat b N) (fun a => points_repeated C (map (hash_point C) a)) <= Z.of_nat N * (Z.of_nat N - 1) * tuples (repeat b N).
Proof.
  pose proof (order_gt1 C L) as O1. assert (HB : 0 < b \/ b = 0) by lia. destruct HB as [HB|HB].
  2:{ rewrite HB. rewrite Z.mul_0_l. destruct N as [|N]; [cbn; lia|]. cbn [repeat tuples fold_right]. lia. }
  induction N as [|N IH]; [cbn; lia|]. cbn [repeat count].
  assert (NR : Forall (fun x => 0 <= x) (repeat b N)) by (apply Forall_repeat; lia). pose proof (tuples_nonneg _ NR) as HT.
  change (tuples (b :: repeat b N)) with (b * tuples (repeat b N)). set (T := tuples (repeat b N)) in *. set (W := count (repeat b N) (fun a => points_repeated C (map (hash_point C) a))) in *.
  assert (Y : forall d, 0 <= d < Z.of_nat (Z.to_nat b) -> b * count (repeat b N) (fun a => points_repeated C (map (hash_point C) (d :: a))) <= 2 * Z.of_nat N * T + Z.of_nat N * (Z.of_nat N - 1) * T).
  { intros d Hd. rewrite Z2Nat.id in Hd by lia. set (ok := fun e => negb (bytes_eqb (ec_enc C (hash_point C d)) (ec_enc C (hash_point C e)))).
    pose proof (rare_block b ok N HB) as R. fold T in R. pose proof (same_count d Hd) as S2. unfold ok in R at 2. 
    assert (U : count (repeat b N) (fun a => points_repeated C (map (hash_point C) (d :: a))) <= count (repeat b N) (fun ds => negb (forallb ok ds)) + W).
    { etransitivity; [|apply (count_or (repeat b N) (fun ds => negb (forallb ok ds)) (fun a => points_repeated C (map (hash_point C) a)))]. apply Z.eq_le_incl, count_ext. intros a _ _. unfold points_repeated. cbn [map repeated]. f_equal.
      clear. induction a as [|e a IH]; [reflexivity|]. cbn [map existsb forallb]. rewrite IH. unfold ok at 2. destruct (bytes_eqb _ _); reflexivity. }
    set (Q := count [b] _) in *. set (V := count (repeat b N) (fun ds => negb (forallb ok ds))) in *. assert (Z.of_nat N * Q * T <= Z.of_nat N * 2 * T) by (apply Z.mul_le_mono_nonneg_r; [exact HT|]; apply Z.mul_le_mono_nonneg_l; lia).
    assert (b * count (repeat b N) (fun a => points_repeated C (map (hash_point C) (d :: a))) <= b * (V + W)) by (apply Z.mul_le_mono_nonneg_l; lia). lia. }
  rewrite zsum_scale. etransitivity; [apply (zsum_le _ _ _ Y)|]. rewrite zsum_const, Z2Nat.id by lia. rewrite Nat2Z.inj_succ. apply Z.eq_le_incl. ring.
Qed.
End Collide.
