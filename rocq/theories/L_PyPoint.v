(** Lemmas about the Python point objects. *)
From Verif Require Import Base M_BigNum M_Num M_EC M_Group M_Cipher M_Python M_PyPoint S_PyPoint L_EC.

Lemma bind_not_ub {A B} (o : outcome A) (f : A -> outcome B) : o <> UB -> (forall a, o = Ok a -> f a <> UB) -> bind o f <> UB.
Proof. destruct o as [a|c| | |]; cbn [bind]; intros H K; try discriminate; [apply K; reflexivity|congruence]. Qed.
Lemma set_at_same {A} (l : list A) n a : (n < length l)%nat -> nth_error (set_at l n a) n = Some a.
Proof. revert n; induction l as [|x l IH]; intros [|n] H; cbn in *; try lia; [reflexivity|apply IH; lia]. Qed.
Lemma set_at_other {A} (l : list A) n m a : n <> m -> nth_error (set_at l n a) m = nth_error l m.
Proof. revert n m; induction l as [|x l IH]; intros [|n] [|m] H; cbn; try reflexivity; [lia|apply IH; lia]. Qed.
Lemma set_at_length {A} (l : list A) n a : length (set_at l n a) = length l.
Proof. revert n; induction l as [|x l IH]; intros [|n]; cbn; [reflexivity..|]. rewrite IH. reflexivity. Qed.
Lemma nth_error_end {A} (l : list A) a : nth_error (l ++ [a]) (length l) = Some a.
Proof. rewrite nth_error_app2 by lia. rewrite Nat.sub_diag. reflexivity. Qed.
Lemma nth_error_keep {A} (l : list A) a n x : nth_error l n = Some x -> nth_error (l ++ [a]) n = Some x.
Proof. intros E. rewrite nth_error_app1; [exact E|]. apply nth_error_Some. congruence. Qed.

Lemma long_to_bytes_not_ub z n : long_to_bytes z n <> UB.
Proof. unfold long_to_bytes. destruct (z <? 0); discriminate. Qed.
Lemma message_bytes_not_ub m : message_bytes m <> UB.
Proof. destruct m; cbn; [apply long_to_bytes_not_ub|discriminate]. Qed.
Lemma py_ro_loop_not_ub hl H : forall n i x acc, py_ro_loop hl H n i x acc <> UB.
Proof. induction n as [|n IH]; intros i x acc; cbn [py_ro_loop]; [discriminate|]. apply bind_not_ub; [apply long_to_bytes_not_ub|]. intros; apply IH. Qed.
Lemma py_random_oracle_not_ub hl H m b : py_random_oracle hl H m b <> UB.
Proof.
  unfold py_random_oracle. destruct (255 <? _); [discriminate|]. apply bind_not_ub; [apply message_bytes_not_ub|]. intros x _.
  apply bind_not_ub; [apply py_ro_loop_not_ub|]. intros out _. destruct (b =? 0); discriminate.
Qed.
Lemma long_to_bn_not_ub z : long_to_bn z <> UB.
Proof. unfold long_to_bn. apply bind_not_ub; [apply long_to_bytes_not_ub|]. discriminate. Qed.
Lemma bn_mod_exp_not_ub a e m : bn_mod_exp a e m <> UB.
Proof. unfold bn_mod_exp. repeat match goal with |- context [if ?b then _ else _] => destruct b end; discriminate. Qed.
Lemma bn_mod_inverse_not_ub a m : bn_mod_inverse a m <> UB.
Proof. unfold bn_mod_inverse. repeat match goal with |- context [if ?b then _ else _] => destruct b | |- context [match ?b with _ => _ end] => destruct b end; discriminate. Qed.

Section Heap.
Variable C : ec.
Notation heap := (heap C).
Lemma py_from_point_not_ub x y : py_from_point C x y <> UB.
Proof.
  unfold py_from_point. apply bind_not_ub; [apply long_to_bn_not_ub|]. intros bx _. apply bind_not_ub; [apply long_to_bn_not_ub|]. intros b _.
  destruct (ec_of_xy C bx b) as [P|]; [destruct (is_inf C P)|]; discriminate.
Qed.
Lemma py_new_not_ub b raw t : py_new C b raw t <> UB.
Proof. unfold py_new. apply bind_not_ub; [apply bn_mod_inverse_not_ub|]. discriminate. Qed.

Lemma group_live_in_use (h : heap) g : group_live C h g = true <-> in_use C h g.
Proof.
  unfold group_live, in_use. destruct (nth_error (h_curves C h) g) as [c|]; [|split; [discriminate|intros (c & E & _); discriminate]].
  rewrite Bool.orb_true_iff, Nat.ltb_lt, existsb_exists. split.
  - intros [H|(e & I & E)]; exists c; (split; [reflexivity|]); [left; exact H|right]. apply andb_true_iff in E as [L E]. apply Nat.eqb_eq in E.
    apply In_nth_error in I as [k I]. exists k, e. auto.
  - intros (c' & E & H). injection E as <-. destruct H as [H|(k & e & I & L & E)]; [left; exact H|right]. exists e. split; [apply (nth_error_In _ _ I)|].
    rewrite L, E, Nat.eqb_refl. reflexivity.
Qed.
Lemma group_dead (h : heap) g : group_live C h g = false <-> ~ in_use C h g.
Proof. rewrite <- group_live_in_use. destruct (group_live C h g); split; congruence. Qed.

Lemma point_with_group_ok (h : heap) p e : point_with_group C h p = Ok e <-> nth_error (h_points C h) p = Some e /\ in_use C h (p_group C e).
Proof.
  unfold point_with_group, point_at. rewrite <- group_live_in_use. destruct (nth_error (h_points C h) p) as [f|]; cbn [bind]; [|split; [discriminate|intros [E _]; discriminate]].
  destruct (group_live C h (p_group C f)) eqn:G; (split; [intros E; try discriminate; injection E as <-; auto|intros [E L]; injection E as <-]); congruence.
Qed.
Lemma point_with_group_ub (h : heap) p : point_with_group C h p = UB <-> orphan C h p.
Proof.
  unfold point_with_group, point_at, orphan. destruct (nth_error (h_points C h) p) as [f|]; cbn [bind]; [|split; [discriminate|intros (e & E & _); discriminate]].
  destruct (group_live C h (p_group C f)) eqn:G; split; try discriminate.
  - intros (e & E & N). injection E as <-. apply group_live_in_use in G. contradiction.
  - intros _. exists f. split; [reflexivity|]. apply group_dead, G.
  - reflexivity.
Qed.
Lemma scalar_ok (h : heap) s z : scalar_value C h s = Ok z <-> stands_for C h s z.
Proof.
  destruct s as [n|k|n]; cbn [scalar_value stands_for]; [split; [intros E; injection E; auto|intros ->; reflexivity]| |split; [discriminate|tauto]].
  destruct (nth_error (h_keys C h) k) as [e|]; [|split; [discriminate|intros (e & E & _); discriminate]]. destruct (k_live e) eqn:L; split.
  - intros E. injection E as <-. eauto.
  - intros (e' & E & _ & ->). injection E as <-. reflexivity.
  - discriminate.
  - intros (e' & E & L' & _). injection E as <-. congruence.
Qed.
Lemma scalar_ub (h : heap) s : scalar_value C h s = UB <-> wild C h s.
Proof.
  destruct s as [n|k|n]; cbn [scalar_value wild]; [split; [discriminate|tauto]| |tauto].
  destruct (nth_error (h_keys C h) k) as [e|]; [|split; [discriminate|intros (e & E & _); discriminate]]. destruct (k_live e) eqn:L; split; try discriminate.
  - intros (e' & E & L'). injection E as <-. congruence.
  - eauto.
  - reflexivity.
Qed.

(** A call keeps the points it does not work on. *)
Definition keeps (except : option nat) (h h' : heap) : Prop :=
  forall p e, nth_error (h_points C h) p = Some e -> except <> Some p -> nth_error (h_points C h') p = Some e.
Lemma keeps_refl x h : keeps x h h. Proof. intros p e E _. exact E. Qed.
Lemma keeps_trans x h1 h2 h3 : keeps x h1 h2 -> keeps x h2 h3 -> keeps x h1 h3. Proof. intros A B p e E N. apply B; auto. Qed.
Lemma keeps_new x h g P : keeps x h (fst (new_point C h g P)). Proof. intros p e E _. cbn. apply nth_error_keep, E. Qed.
Lemma keeps_set h p g P : keeps (Some p) h (fst (set_point C h p g P)). Proof. intros q e E N. cbn. rewrite set_at_other by congruence. exact E. Qed.

Lemma bind_ok {A B} (o : outcome A) (f : A -> outcome B) b : bind o f = Ok b -> exists a, o = Ok a /\ f a = Ok b.
Proof. destruct o; cbn; intros E; try discriminate. eauto. Qed.
Lemma bind_ub {A B} (o : outcome A) (f : A -> outcome B) : bind o f = UB <-> o = UB \/ exists a, o = Ok a /\ f a = UB.
Proof.
  destruct o; cbn; split; intros H; try discriminate; eauto; try (destruct H as [H|(x & H & K)]; try discriminate). injection H as <-. exact K.
Qed.

Lemma construct_ok h g o r : construct C h g o = Ok r -> in_use C h g /\ exists P, o = Ok P /\ r = new_point C h g P.
Proof.
  unfold construct. destruct (group_live C h g) eqn:G; [|discriminate]. intros E. apply bind_ok in E as (P & -> & E). injection E as <-. apply group_live_in_use in G. eauto.
Qed.
Lemma construct_ub h g o : o <> UB -> construct C h g o <> UB.
Proof. intros N. unfold construct. destruct (group_live C h g); [|discriminate]. apply bind_not_ub; [exact N|discriminate]. Qed.
Lemma imul_ok h p s r : imul C h p s = Ok r -> exists e z, nth_error (h_points C h) p = Some e /\ in_use C h (p_group C e) /\ stands_for C h s z /\ r = set_point C h p (p_group C e) (point_mul C (p_value C e) z).
Proof.
  unfold imul. intros E. apply bind_ok in E as (e & E1 & E). apply bind_ok in E as (z & E2 & E). injection E as <-. apply point_with_group_ok in E1 as [E1 U]. apply scalar_ok in E2. exists e, z. auto.
Qed.
Lemma imul_does h p s e z : nth_error (h_points C h) p = Some e -> in_use C h (p_group C e) -> stands_for C h s z ->
  imul C h p s = Ok (set_point C h p (p_group C e) (point_mul C (p_value C e) z)).
Proof. intros E U S. unfold imul. rewrite (proj2 (point_with_group_ok h p e)) by auto. cbn [bind]. rewrite (proj2 (scalar_ok h s z)) by exact S. reflexivity. Qed.
Lemma in_use_points h l g : in_use C (with_points C h l) g <-> in_use C h g. Proof. reflexivity. Qed.
Lemma as_bytes_does h p e : nth_error (h_points C h) p = Some e -> in_use C h (p_group C e) -> as_bytes C h p = Ok (py_encoded C (p_value C e)).
Proof. intros E U. unfold as_bytes. rewrite (proj2 (point_with_group_ok h p e)) by auto. reflexivity. Qed.
Lemma living_ok h k e : living_key C h k = Ok e <-> nth_error (h_keys C h) k = Some e /\ k_live e = true.
Proof.
  unfold living_key. destruct (nth_error (h_keys C h) k) as [f|]; [|split; [discriminate|intros [E _]; discriminate]].
  destruct (k_live f) eqn:L; (split; [intros E; try discriminate; injection E as <-; auto|intros [E L']; injection E as <-; congruence]).
Qed.
Lemma living_not_ub h k : living_key C h k <> UB.
Proof. unfold living_key. destruct (nth_error _ k) as [e|]; [destruct (k_live e)|]; discriminate. Qed.
Lemma lt_some {A} (l : list A) n a : nth_error l n = Some a -> (n < length l)%nat.
Proof. intros E. apply nth_error_Some. congruence. Qed.

Lemma encrypt_point_does h k p e f : nth_error (h_keys C h) k = Some f -> k_live f = true -> nth_error (h_points C h) p = Some e -> in_use C h (p_group C e) ->
  encrypt_point C h k p = Ok (fst (set_point C h p (p_group C e) (point_mul C (p_value C e) (pc_key (k_cipher f)))), py_encoded C (point_mul C (p_value C e) (pc_key (k_cipher f)))).
Proof.
  intros K L E U. unfold encrypt_point. rewrite (proj2 (living_ok h k f)) by auto. cbn [bind].
  rewrite (imul_does h p _ e (pc_key (k_cipher f)) E U) by (exists f; auto). cbn [bind fst snd set_point].
  rewrite (as_bytes_does _ p {| p_group := p_group C e; p_value := point_mul C (p_value C e) (pc_key (k_cipher f)) |}); [reflexivity| |exact U].
  cbn. apply set_at_same. apply (lt_some _ _ _ E).
Qed.
Lemma encrypt_point_ok h k p r : encrypt_point C h k p = Ok r -> exists e f, nth_error (h_keys C h) k = Some f /\ k_live f = true /\ nth_error (h_points C h) p = Some e /\ in_use C h (p_group C e).
Proof.
  unfold encrypt_point. intros E. apply bind_ok in E as (f & E1 & E). apply bind_ok in E as (s & E2 & _). apply living_ok in E1 as [K L]. apply imul_ok in E2 as (e & z & E2 & U & _). eauto 8.
Qed.
Lemma encrypt_point_ub h k p : encrypt_point C h k p = UB <-> (exists f, nth_error (h_keys C h) k = Some f /\ k_live f = true) /\ orphan C h p.
Proof.
  unfold encrypt_point. split.
  - intros E. apply bind_ub in E as [E|(f & K & E)]; [destruct (living_not_ub _ _ E)|]. apply living_ok in K as [K L]. split; [eauto|].
    apply bind_ub in E as [E|(r & E1 & E)].
    + unfold imul in E. apply bind_ub in E as [E|(e & _ & E)]; [apply point_with_group_ub, E|]. apply bind_ub in E as [E|(z & _ & E)]; [|discriminate].
      apply scalar_ub in E as (f' & K' & L'). congruence.
    + apply imul_ok in E1 as (e & z & E1 & U & S & ->). cbn [fst snd set_point] in E.
      rewrite (as_bytes_does _ p {| p_group := p_group C e; p_value := point_mul C (p_value C e) z |}) in E; [discriminate| |exact U]. cbn. apply set_at_same, (lt_some _ _ _ E1).
  - intros [(f & K & L) O]. rewrite (proj2 (living_ok h k f)) by auto. cbn [bind]. unfold imul. apply point_with_group_ub in O. rewrite O. reflexivity.
Qed.
(** The methods of a cipher that work on a point of their own. *)
Lemma on_own_point h k e o : nth_error (h_keys C h) k = Some e -> k_live e = true -> o <> UB -> (let* r := construct C h (k_curve e) o in encrypt_point C (fst r) k (snd r)) <> UB.
Proof.
  intros K L N E. apply bind_ub in E as [E|(r & E1 & E)]; [destruct (construct_ub _ _ _ N E)|]. apply construct_ok in E1 as (U & P & -> & ->). cbn [fst snd new_point] in E.
  apply encrypt_point_ub in E as [_ (x & E & D)]. cbn in E. rewrite nth_error_end in E. injection E as <-. apply D. exact U.
Qed.
Lemma encrypt_point_keeps h k p r : encrypt_point C h k p = Ok r -> keeps (Some p) h (fst r).
Proof. intros E. destruct (encrypt_point_ok _ _ _ _ E) as (e & f & K & L & Ep & U). rewrite (encrypt_point_does h k p e f K L Ep U) in E. injection E as <-. apply keeps_set. Qed.
Lemma own_keeps h g P k r : encrypt_point C (fst (new_point C h g P)) k (snd (new_point C h g P)) = Ok r -> forall x, keeps x h (fst r).
Proof.
  intros E x p e Ep _. apply (encrypt_point_keeps _ _ _ _ E); [apply (keeps_new None); [exact Ep|discriminate]|]. cbn. apply lt_some in Ep. intros Q. injection Q. lia.
Qed.

(** What holds of every heap that a program reaches: keys have their curve, with their hash type, and points have a curve. *)
Definition sane (h : heap) : Prop :=
  (forall k e, nth_error (h_keys C h) k = Some e -> exists c, nth_error (h_curves C h) (k_curve e) = Some c /\ c_hash c = pc_hash (k_cipher e)) /\
  (forall p e, nth_error (h_points C h) p = Some e -> (p_group C e < length (h_curves C h))%nat).
Lemma sane_init : sane (heap_init C).
Proof. split; intros [|n] e E; discriminate. Qed.
Lemma sane_new h g P : sane h -> in_use C h g -> sane (fst (new_point C h g P)).
Proof.
  intros [A B] (c & U & _). split; [exact A|]. intros p e E. cbn in *. destruct (Nat.lt_ge_cases p (length (h_points C h))) as [L|L].
  - rewrite nth_error_app1 in E by exact L. apply (B p e E).
  - rewrite nth_error_app2 in E by exact L. destruct (p - length (h_points C h))%nat as [|[|n]]; try discriminate. injection E as <-. apply (lt_some _ _ _ U).
Qed.
Lemma sane_set h p e P : sane h -> nth_error (h_points C h) p = Some e -> sane (fst (set_point C h p (p_group C e) P)).
Proof.
  intros [A B] E. split; [exact A|]. intros q f F. cbn in *. destruct (Nat.eq_dec p q) as [<-|N].
  - rewrite set_at_same in F by apply (lt_some _ _ _ E). injection F as <-. apply (B p e E).
  - rewrite set_at_other in F by exact N. apply (B q f F).
Qed.
Lemma sane_encrypt_point h k p r : sane h -> encrypt_point C h k p = Ok r -> sane (fst r).
Proof. intros S E. destruct (encrypt_point_ok _ _ _ _ E) as (e & f & K & L & Ep & U). rewrite (encrypt_point_does h k p e f K L Ep U) in E. injection E as <-. apply sane_set; assumption. Qed.
Lemma sane_curve h g c c' : sane h -> nth_error (h_curves C h) g = Some c -> c_hash c' = c_hash c -> sane (with_curves C h (set_at (h_curves C h) g c')).
Proof.
  intros [A B] E H. split.
  - intros k e K. cbn in *. destruct (A k e K) as (d & D & Hd). destruct (Nat.eq_dec g (k_curve e)) as [Q|N].
    + subst g. exists c'. rewrite set_at_same by apply (lt_some _ _ _ E). split; [reflexivity|congruence].
    + exists d. rewrite set_at_other by exact N. auto.
  - intros p e Ep. cbn in *. rewrite set_at_length. apply (B p e Ep).
Qed.
End Heap.

Section Calls.
Variable C : ec.
Variable X : externals.
Variable sqrt_p : Z -> Z.
Variable decode : bytes -> option (pt C).
Variable fuel : nat.
Notation heap := (heap C).
Notation call := (call C X sqrt_p decode fuel).
Notation step := (step C X sqrt_p decode fuel).
Notation run := (run C X sqrt_p decode fuel).
Notation keeps := (keeps C).
Notation sane := (sane C).
Lemma py_point_not_ub m : py_point C decode m <> UB.
Proof.
  unfold py_point. apply bind_not_ub; [apply message_bytes_not_ub|]. intros s _. destruct (decode s) as [P|]; [destruct (is_inf C P)|]; discriminate.
Qed.
Lemma py_hash_to_curve_not_ub h : forall n m, py_hash_to_curve C X sqrt_p h n m <> UB.
Proof.
  induction n as [|n IH]; intros m; cbn [py_hash_to_curve]; [discriminate|]. apply bind_not_ub; [apply py_random_oracle_not_ub|]. intros x _.
  apply bind_not_ub; [apply bn_mod_exp_not_ub|]. intros e _. destruct (bn_to_long e =? 1); [|apply IH].
  apply bind_not_ub; [apply long_to_bn_not_ub|]. intros n2 _. destruct (is_bit_set _ 0); discriminate.
Qed.
Lemma hash_point_not_ub h g m : hash_point C X sqrt_p fuel h g m <> UB.
Proof.
  unfold hash_point, py_hash_point. destruct (nth_error _ g); [|discriminate]. apply bind_not_ub; [apply py_hash_to_curve_not_ub|]. intros; apply py_from_point_not_ub.
Qed.
Lemma step_failed (h : heap) c : is_ok (snd (step h c)) = false -> fst (step h c) = h.
Proof. unfold step. destruct (call h c) as [[h' a]|c'| | |]; cbn; intros E; try reflexivity. discriminate. Qed.
Lemma step_call_ok (h : heap) c h' a : step h c = (h', Ok a) <-> call h c = Ok (h', a).
Proof. unfold M_PyPoint.step, attempt. destruct (call h c) as [[h1 a1]|c'| | |]; split; intros E; try discriminate; injection E as <- <-; reflexivity. Qed.
Lemma step_ub (h : heap) c : snd (step h c) = UB <-> call h c = UB.
Proof. unfold M_PyPoint.step, attempt. destruct (call h c) as [[h1 a1]|c'| | |]; cbn; split; intros E; try discriminate; reflexivity. Qed.

Lemma call_keeps h c h' a : call h c = Ok (h', a) -> keeps (changes c) h h'.
Proof.
  intros E. destruct c; cbn [M_PyPoint.call changes] in *; unfold as_ref, with_bytes, reading in E; (apply bind_ok in E as ([h1 r0] & E & Q)) || (apply bind_ok in E as (r0 & E & Q)); cbn [fst snd] in Q; injection Q as <- <-; try apply keeps_refl.
  - injection E as <- _. intros p0 e0 Ep0 _; exact Ep0.
  - apply bind_ok in E as (c & _ & E). injection E as <- _. intros p0 e0 Ep0 _; exact Ep0.
  - unfold take_curve in E. apply bind_ok in E as (f & _ & E). destruct (nth_error _ _); [|discriminate]. injection E as <- _. intros p0 e0 Ep0 _; exact Ep0.
  - unfold drop_curve in E. destruct (nth_error _ _) as [cv|]; [|discriminate]. destruct (c_held cv); [discriminate|]. injection E as <- _. intros p0 e0 Ep0 _; exact Ep0.
  - unfold drop_cipher in E. apply bind_ok in E as (f & _ & E). injection E as <- _. intros p0 e0 Ep0 _; exact Ep0.
  - apply construct_ok in E as (_ & P & _ & E). injection E as -> _. apply (keeps_new C None h).
  - apply construct_ok in E as (_ & P & _ & E). injection E as -> _. apply (keeps_new C None h).
  - apply construct_ok in E as (_ & P & _ & E). injection E as -> _. apply (keeps_new C None h).
  - apply construct_ok in E as (_ & P & _ & E). injection E as -> _. apply (keeps_new C None h).
  - unfold mul in E. apply bind_ok in E as (f & _ & E). apply bind_ok in E as (z & _ & E). injection E as <- _. apply (keeps_new C None h).
  - apply imul_ok in E as (f & z & _ & _ & _ & E). injection E as -> _. apply keeps_set.
  - unfold add in E. apply bind_ok in E as (f & _ & E). apply bind_ok in E as (z & _ & E). injection E as <- _. apply (keeps_new C None h).
  - unfold iadd in E. apply bind_ok in E as (f & _ & E). apply bind_ok in E as (z & _ & E). injection E as <- _. apply keeps_set.
  - apply encrypt_point_keeps in E. exact E.
  - unfold encrypt in E. apply bind_ok in E as (f & _ & E). apply bind_ok in E as (r & E1 & E). apply construct_ok in E1 as (_ & P & _ & ->). apply (own_keeps C _ _ _ _ _ E).
  - unfold reencrypt in E. apply bind_ok in E as (f & _ & E). apply bind_ok in E as (r & E1 & E). apply construct_ok in E1 as (_ & P & _ & ->). apply (own_keeps C _ _ _ _ _ E).
  - unfold decrypt in E. apply bind_ok in E as (f & _ & E). apply bind_ok in E as (r & E1 & E). apply construct_ok in E1 as (_ & P & _ & ->).
    apply bind_ok in E as (r' & E2 & E). apply bind_ok in E as (t & _ & E). injection E as <- _. apply imul_ok in E2 as (e & z & _ & _ & _ & ->).
    intros p e' Ep N. cbn. pose proof (lt_some _ _ _ Ep). rewrite set_at_other by lia. apply nth_error_keep, Ep.
Qed.

Lemma sane_call h c h' a : sane h -> call h c = Ok (h', a) -> sane h'.
Proof.
  intros S E. destruct c; cbn [M_PyPoint.call] in *; unfold as_ref, with_bytes, reading in E; (apply bind_ok in E as ([h1 r0] & E & Q)) || (apply bind_ok in E as (r0 & E & Q)); cbn [fst snd] in Q; injection Q as <- <-; try exact S.
  - injection E as <- _. destruct S as [A B]. split.
    + intros k e K. destruct (A k e K) as (d & D & Hd). exists d. split; [apply nth_error_keep, D|exact Hd].
    + intros p e Ep. cbn. rewrite app_length. pose proof (B p e Ep). lia.
  - apply bind_ok in E as (c & _ & E). injection E as <- _. destruct S as [A B]. split.
    + intros k e K. cbn in K. destruct (Nat.lt_ge_cases k (length (h_keys C h))) as [L|L].
      * rewrite nth_error_app1 in K by exact L. destruct (A k e K) as (d & D & Hd). exists d. split; [apply nth_error_keep, D|exact Hd].
      * rewrite nth_error_app2 in K by exact L. destruct (k - length (h_keys C h))%nat as [|[|n]]; try discriminate. injection K as <-. cbn. eexists. split; [apply nth_error_end|reflexivity].
    + intros p e Ep. cbn. rewrite app_length. pose proof (B p e Ep). lia.
  - unfold take_curve in E. apply bind_ok in E as (f & _ & E). destruct (nth_error _ _) as [cv|] eqn:D; [|discriminate]. injection E as <- _. apply (sane_curve C h _ cv); auto.
  - unfold drop_curve in E. destruct (nth_error _ _) as [cv|] eqn:D; [|discriminate]. destruct (c_held cv); [discriminate|]. injection E as <- _. apply (sane_curve C h _ cv); auto.
  - unfold drop_cipher in E. apply bind_ok in E as (f & F & E). injection E as <- _. apply living_ok in F as [F _]. destruct S as [A B]. split; [|exact B].
    intros j e K. cbn in K. destruct (Nat.eq_dec k j) as [<-|N].
    + rewrite set_at_same in K by apply (lt_some _ _ _ F). injection K as <-. apply (A k f F).
    + rewrite set_at_other in K by exact N. apply (A j e K).
  - apply construct_ok in E as (U & P & _ & E). injection E as -> _. apply (sane_new C h); assumption.
  - apply construct_ok in E as (U & P & _ & E). injection E as -> _. apply (sane_new C h); assumption.
  - apply construct_ok in E as (U & P & _ & E). injection E as -> _. apply (sane_new C h); assumption.
  - apply construct_ok in E as (U & P & _ & E). injection E as -> _. apply (sane_new C h); assumption.
  - unfold mul in E. apply bind_ok in E as (f & F & E). apply bind_ok in E as (z & _ & E). apply point_with_group_ok in F as [F U]. injection E as <- _. apply (sane_new C h); assumption.
  - apply imul_ok in E as (f & z & F & _ & _ & E). injection E as -> _. apply (sane_set C h); assumption.
  - unfold add in E. apply bind_ok in E as (f & F & E). apply bind_ok in E as (z & _ & E). apply point_with_group_ok in F as [F U]. injection E as <- _. apply (sane_new C h); assumption.
  - unfold iadd in E. apply bind_ok in E as (f & F & E). apply bind_ok in E as (z & _ & E). apply point_with_group_ok in F as [F U]. injection E as <- _. apply (sane_set C h); assumption.
  - apply (sane_encrypt_point C _ _ _ _ S E).
  - unfold encrypt in E. apply bind_ok in E as (f & _ & E). apply bind_ok in E as (r & E1 & E). apply construct_ok in E1 as (U & P & _ & ->). apply (sane_encrypt_point C _ _ _ _ (sane_new C h _ P S U) E).
  - unfold reencrypt in E. apply bind_ok in E as (f & _ & E). apply bind_ok in E as (r & E1 & E). apply construct_ok in E1 as (U & P & _ & ->). apply (sane_encrypt_point C _ _ _ _ (sane_new C h _ P S U) E).
  - unfold decrypt in E. apply bind_ok in E as (f & _ & E). apply bind_ok in E as (r & E1 & E). apply construct_ok in E1 as (U & P & _ & ->).
    apply bind_ok in E as (r' & E2 & E). apply bind_ok in E as (t & _ & E). injection E as <- _. apply imul_ok in E2 as (e & z & E2 & _ & _ & ->).
    apply sane_set; [apply sane_new; assumption|exact E2].
Qed.
Lemma sane_step h c : sane h -> sane (fst (step h c)).
Proof.
  intros S. unfold M_PyPoint.step, attempt. destruct (call h c) as [[h' a]|c'| | |] eqn:E; try exact S. apply (sane_call h c h' a S E).
Qed.
Lemma sane_run : forall l h, sane h -> sane (run h l).
Proof. induction l as [|c l IH]; intros h S; [exact S|]. cbn [M_PyPoint.run]. apply IH, sane_step, S. Qed.
End Calls.
