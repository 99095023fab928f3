(** The client's message, as a function of points and ciphertexts (for C81). *)
From Coq Require Import Permutation Sorted Znumtheory.
From Verif Require Import Base M_BigNum L_BigNum M_Num M_EC L_EC M_Group M_Cipher S_Cipher L_Cipher M_Paillier S_Paillier L_Paillier L_PaillierKey M_Protocol S_Protocol L_Protocol L_HideKey S_Ddh L_Ddh P_Ddh S_ClientView S_Dcr L_DcrUnits.

(** ** Sorting *)
Lemma sorted_unique (R : elem -> elem -> Prop) : forall a b, (forall x y, In x a -> In y a -> R x y -> R y x -> x = y) -> StronglySorted R a -> StronglySorted R b -> Permutation a b -> a = b.
Proof.
  induction a as [|x a IH]; intros b An Sa Sb P; [apply Permutation_nil in P; symmetry; exact P|].
  destruct b as [|y b]; [apply Permutation_sym, Permutation_nil in P; discriminate|]. inversion Sa as [|? ? Sa' Fa]; inversion Sb as [|? ? Sb' Fb]; subst.
  assert (x = y) as ->.
  { assert (Iy : In y (x :: a)) by (apply (Permutation_in _ (Permutation_sym P)); left; reflexivity). assert (Ix : In x (y :: b)) by (apply (Permutation_in _ P); left; reflexivity).
    destruct Iy as [E|Iy]; [exact E|]. destruct Ix as [E|Ix]; [symmetry; exact E|]. rewrite Forall_forall in Fa, Fb. apply An; [left; reflexivity|right; exact Iy|apply Fa, Iy|apply Fb, Ix]. }
  f_equal. apply IH; [intros u v Hu Hv; apply An; right; assumption|assumption|assumption|]. apply Permutation_cons_inv in P. exact P.
Qed.
Lemma srt_perm srt a b : sorts srt -> Permutation a b -> Forall (fun e => ad e = []) a -> srt a = srt b.
Proof.
  intros S P F. destruct (S a) as [Pa Sa]. destruct (S b) as [Pb Sb]. apply (sorted_unique (fun x y => bytes_ltb (el y) (el x) = false)); [|exact Sa|exact Sb|exact (Permutation_trans (Permutation_sym Pa) (Permutation_trans P Pb))].
  intros [ex ax] [ey ay] Hx Hy E1 E2. rewrite Forall_forall in F. pose proof (F _ (Permutation_in _ (Permutation_sym Pa) Hx)) as Ax. pose proof (F _ (Permutation_in _ (Permutation_sym Pa) Hy)) as Ay. cbn in *. subst.
  f_equal. apply bytes_ltb_total; assumption.
Qed.

(** ** The identifiers *)
Lemma existsb_in x l : existsb (bytes_eqb x) l = true <-> In x l.
Proof. rewrite existsb_exists. split; [intros (y & Hy & E); apply bytes_eqb_eq in E; subst; exact Hy|intros H; exists x; split; [exact H|apply bytes_eqb_refl]]. Qed.
Lemma chosen_common {A} (f : bytes -> A) xs ys : chosen (common_rows xs ys) (map f xs) = map f (filter (fun x => existsb (bytes_eqb x) ys) xs).
Proof. induction xs as [|x xs IH]; [reflexivity|]. cbn [common_rows map chosen filter]. fold (common_rows xs ys). destruct (existsb _ ys); cbn [map]; rewrite IH; reflexivity. Qed.
Lemma server_split xs ys : NoDup xs -> NoDup ys -> Permutation ys (filter (fun x => existsb (bytes_eqb x) ys) xs ++ only_server xs ys).
Proof.
  intros Nx Ny. apply NoDup_Permutation; [exact Ny| |].
  - unfold only_server. assert (G : forall a b : list bytes, NoDup a -> NoDup b -> (forall x, In x a -> ~ In x b) -> NoDup (a ++ b)).
    { intros a b Na Nb. induction Na as [|z a Hz Na IH]; intros D; [exact Nb|]. cbn [app]. constructor.
      - intros Hi. apply in_app_or in Hi. destruct Hi as [Hi|Hi]; [contradiction|]. apply (D z); [left; reflexivity|exact Hi].
      - apply IH. intros y Hy. apply D. right. exact Hy. }
    apply G; [apply NoDup_filter, Nx|apply NoDup_filter, Ny|]. intros x Hx Hy. apply filter_In in Hx, Hy. destruct Hy as [_ Hy]. rewrite negb_true_iff in Hy. apply Bool.not_true_iff_false in Hy. apply Hy, existsb_in, Hx.
  - intros y. rewrite in_app_iff. unfold only_server. rewrite !filter_In, existsb_in, negb_true_iff. destruct (existsb (bytes_eqb y) xs) eqn:E.
    + apply existsb_in in E. intuition discriminate.
    + apply Bool.not_true_iff_false in E. rewrite existsb_in in E. tauto.
Qed.

(** ** The client's rows and its second part *)
Section View.
Variable C : ec.
Hypothesis L : ec_laws C.
Variable X : externals.
Variable sqrt_p : Z -> Z.
Variable fuel : nat.
Variable isp : Z -> bool.
Variable flag : bool.
Variable srt : list elem -> list elem.
Hypothesis Hsrt : sorts srt.
Variables p q : Z.
Variable sk : private_paillier.
Hypothesis Hp : safe_prime p.
Hypothesis Hq : safe_prime q.
Hypothesis Esk : private_create isp flag p q 2 = Ok sk.
Notation n := (p * q).
(** The points of the identifiers. *)
Variable h : bytes -> pt C.

Definition hashed (ids : list bytes) : Prop := Forall (fun x => hash_internal C X sqrt_p None fuel 0 x = Ok (h x) /\ h x <> pinf C) ids.

Lemma wire_ok z : 0 <= z -> to_bytes z = Ok (wire z).
Proof. intros H. unfold wire. destruct (to_bytes_of z H) as (b & -> & _). reflexivity. Qed.
Lemma client_rows_are c : good C c -> ci_hash c = 0 -> forall xs vs vd rp rq i, hashed xs -> length vs = length xs -> Forall (fun v => 0 <= v < n ^ 2) vs -> (3 * length xs <= length vd)%nat ->
  (forall j, rp (i + j)%nat = nth (3 * j) vd 0) -> (forall j, rq (i + j)%nat = nth (3 * j + 1) vd 0) ->
  client_rows C X sqrt_p fuel flag c sk rp rq i xs vs =
  Ok (map (fun Pc => {| el := ec_enc C (fst Pc); ad := wire (snd Pc) |}) (combine (map (fun x => pmul C (ci_key c) (h x)) xs) (row_ciphertexts flag sk (map Some vs) vd))).
Proof.
  intros G H0. assert (Pn : 0 < n ^ 3). { pose proof (safe_prime_facts p Hp) as (_ & ? & _). pose proof (safe_prime_facts q Hq) as (_ & ? & _). apply Z.pow_pos_nonneg; nia. }
  induction xs as [|x xs IH]; intros vs vd rp rq i Hx El Hv Ld Erp Erq; [reflexivity|]. destruct vs as [|v vs]; [cbn in El; lia|].
  destruct vd as [|d1 [|d2 [|d3 vd]]]; [cbn in Ld; lia..|]. inversion Hx as [|? ? [Ex Nx] Hx']; subst. inversion Hv as [|? ? Hv1 Hv']; subst.
  cbn [client_rows map row_ciphertexts combine plain]. rewrite (enc_ok C L X sqrt_p fuel c x (h x) G H0 Ex Nx). cbn [bind].
  pose proof (Erp 0%nat) as E1. pose proof (Erq 0%nat) as E2. rewrite Nat.add_0_r in E1, E2. cbn [Nat.mul Nat.add nth] in E1, E2. rewrite E1, E2.
  rewrite (priv_encrypt_sealed isp flag p q 2 sk Hp Hq ltac:(lia) Esk v d1 d2) by (change (Z.of_nat 2) with 2; exact Hv1). cbn [bind].
  rewrite wire_ok by (unfold sealed; apply Z.mod_pos_bound; exact Pn). cbn [bind].
  rewrite (IH vs vd rp rq (S i)); [reflexivity|exact Hx'|cbn in El; lia|exact Hv'|cbn in Ld; lia| |].
  - intros j. replace (S i + j)%nat with (i + S j)%nat by lia. rewrite Erp. replace (3 * S j)%nat with (S (S (S (3 * j)))) by lia. reflexivity.
  - intros j. replace (S i + j)%nat with (i + S j)%nat by lia. rewrite Erq. replace (3 * S j + 1)%nat with (S (S (S (3 * j + 1)))) by lia. reflexivity.
Qed.
Lemma client_second c ks es : good C c -> ks mod ec_order C <> 0 -> Forall (fun y => h y <> pinf C) es ->
  mapM (fun e => let* x := cipher_reencrypt C c (el e) in Ok {| el := x; ad := [] |}) (map (fun P => {| el := ec_enc C P; ad := [] |}) (map (pmul C ks) (map h es))) =
  Ok (map (fun P => {| el := ec_enc C (pmul C ks P); ad := [] |}) (map (fun y => pmul C (ci_key c) (h y)) es)).
Proof.
  intros G Hk. induction 1 as [|y es Ny _ IH]; [reflexivity|]. cbn [map mapM el]. change (cipher_reencrypt C c) with (apply_layer C (Add c)) at 1.
  rewrite (layer_ok C L (Add c) _ _ G (point_of_bytes_enc C L _ (pmul_not_inf C L _ (h y) Ny Hk))). cbn [bind factor]. rewrite IH. cbn [bind]. rewrite <- !(pmul_mul C L). do 5 f_equal. apply Z.mul_comm.
Qed.
End View.
