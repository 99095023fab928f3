(** Lemmas about the Python BigNum objects. *)
From Verif Require Import Base M_BigNum L_BigNum M_Python L_Port M_PyNum S_PyNum.
From Coq Require Import Znumtheory.

Lemma set_nth_length l : forall r o, length (set_nth l r o) = length l.
Proof. induction l as [|x l IH]; intros [|r] o; cbn; auto. Qed.
Lemma set_nth_same l : forall r o, (r < length l)%nat -> nth_error (set_nth l r o) r = Some o.
Proof. induction l as [|x l IH]; intros [|r] o H; cbn in *; try lia; auto. apply IH. lia. Qed.
Lemma set_nth_other l : forall r r' o, r <> r' -> nth_error (set_nth l r o) r' = nth_error l r'.
Proof. induction l as [|x l IH]; intros [|r] [|r'] o H; cbn; auto; try congruence. Qed.

Section Num.
Variable ms : Z -> Z -> option Z.
Notation step := (step ms).
Notation compute := (compute ms).

(** The object behind a reference that existed before is the same after allocation. *)
Lemma alloc_old w v r o : nth_error (w_objs w) r = Some o -> nth_error (w_objs (fst (alloc w v))) r = Some o.
Proof. intros H. unfold alloc, set_objs; cbn. rewrite nth_error_app1; auto. apply nth_error_Some. congruence. Qed.
Lemma alloc_new w v : nth_error (w_objs (fst (alloc w v))) (snd (alloc w v)) = Some {| o_value := v; o_immutable := true |}.
Proof. unfold alloc, set_objs; cbn. rewrite nth_error_app2 by lia. rewrite Nat.sub_diag. reflexivity. Qed.

(** [extends w w']: nothing that existed was changed. *)
Definition extends (w w' : world) : Prop := forall r o, nth_error (w_objs w) r = Some o -> nth_error (w_objs w') r = Some o.
Lemma extends_refl w : extends w w. Proof. intros r o H; exact H. Qed.
Lemma extends_trans a b c : extends a b -> extends b c -> extends a c. Proof. intros H K r o E. auto. Qed.
Lemma extends_alloc w v : extends w (fst (alloc w v)). Proof. intros r o. apply alloc_old. Qed.
Lemma extends_zero w : extends w (fst (zero w)).
Proof. unfold zero. destruct (w_zero w); [apply extends_refl|]. intros r o H. apply (alloc_old w 0) in H. exact H. Qed.
Lemma extends_one w : extends w (fst (one w)).
Proof. unfold one. destruct (w_one w); [apply extends_refl|]. intros r o H. apply (alloc_old w 1) in H. exact H. Qed.
Lemma extends_two w : extends w (fst (two w)).
Proof. unfold two. destruct (w_two w); [apply extends_refl|]. intros r o H. apply (alloc_old w 2) in H. exact H. Qed.
Lemma extends_from_long w n : extends w (fst (from_long w n)).
Proof. unfold from_long. destruct (long_to_bn n); cbn; try apply extends_refl. apply (extends_alloc w a). Qed.
Lemma extends_compute w f args : extends w (fst (compute w f args)).
Proof. unfold M_PyNum.compute. destruct (values w args); [|apply extends_refl]. destruct (eval ms f l); [|apply extends_refl]. apply (extends_alloc w z). Qed.
Lemma extends_rand w e a : extends w (fst (generate_rand w e a)).
Proof. unfold generate_rand. destruct (value w a); [|apply extends_refl]. destruct (z <=? 0); [apply extends_refl|]. apply (extends_alloc w (e mod z)). Qed.

Lemma extends_step w c : target c = None -> extends w (fst (step w c)).
Proof.
  destruct c; cbn [target]; intros T; try discriminate T; cbn [M_PyNum.step].
  - apply extends_from_long.
  - apply (extends_alloc w v).
  - apply extends_rand.
  - unfold generate_rand_with_start. pose proof (extends_compute w FSub [a; start]) as E.
    destruct (compute w FSub [a; start]) as [w1 [d| | | |]]; try exact E.
    pose proof (extends_rand w1 e d) as E2. destruct (generate_rand w1 e d) as [w2 [r| | | |]]; cbn in E, E2 |- *; try (eapply extends_trans; eassumption).
    eapply extends_trans; [eapply extends_trans; eassumption|apply extends_compute].
  - pose proof (extends_zero w). destruct (zero w); auto.
  - pose proof (extends_one w). destruct (one w); auto.
  - pose proof (extends_two w). destruct (two w); auto.
  - unfold clone. destruct (value w a); [apply (extends_alloc w z)|apply extends_refl].
  - apply extends_compute.
  - unfold shift. destruct (value w a); [|apply extends_refl]. destruct (shifted left_ z n); [apply (extends_alloc w z0)|apply extends_refl].
  - unfold divide. destruct (value w a) as [x|]; [|apply extends_refl]. destruct (value w b) as [y|]; [|apply extends_refl].
    destruct (y =? 0); [apply extends_refl|]. pose proof (extends_alloc w (Z.quot x y)) as E. destruct (alloc w (Z.quot x y)) as [w1 r].
    pose proof (extends_zero w1) as E2. destruct (zero w1) as [w2 z]. cbn in E, E2.
    destruct (value w2 z) as [zv|]; [destruct (negb _)|]; cbn; eapply extends_trans; eassumption.
  - unfold add_one. pose proof (extends_one w) as E. destruct (one w) as [w1 r]. eapply extends_trans; [exact E|apply extends_compute].
  - unfold subtract_one. pose proof (extends_one w) as E. destruct (one w) as [w1 r]. eapply extends_trans; [exact E|apply extends_compute].
  - unfold mod_negate. pose proof (extends_compute w FMod [a; m]) as E. destruct (compute w FMod [a; m]) as [w1 [r| | | |]]; try exact E.
    eapply extends_trans; [exact E|apply extends_compute].
  - intros r o H. exact H.
  - unfold cache_get. destruct (lookup n (w_cache w)); [apply extends_refl|]. pose proof (extends_from_long w n) as E.
    destruct (from_long w n) as [w1 [r| | | |]]; try exact E. destruct (w_max w <=? _); exact E.
Qed.

(** What a call with a target does to the objects. *)
Lemma targeted w c t : target c = Some t ->
  (forall r, r <> t -> nth_error (w_objs (fst (step w c))) r = nth_error (w_objs w) r) /\
  w_zero (fst (step w c)) = w_zero w /\ w_one (fst (step w c)) = w_one w /\ w_two (fst (step w c)) = w_two w /\
  w_cache (fst (step w c)) = w_cache w /\ w_max (fst (step w c)) = w_max w.
Proof.
  destruct c; cbn [target]; intros T; try discriminate T; injection T as <-; cbn [M_PyNum.step].
  - unfold mutable. destruct (nth_error (w_objs w) a); cbn; repeat split; auto. intros r H. apply set_nth_other. congruence.
  - unfold compute_in_place. destruct (nth_error (w_objs w) self) as [o|]; [|cbn; repeat split; auto].
    destruct (values w (self :: args)) as [l|]; [|cbn; repeat split; auto]. destruct (o_immutable o); [cbn; repeat split; auto|].
    destruct (eval ms f l); cbn; repeat split; auto; intros r H; apply set_nth_other; congruence.
  - unfold shift_in_place. destruct (nth_error (w_objs w) a) as [o|]; [|cbn; repeat split; auto].
    destruct (shifted left_ (o_value o) n); cbn; repeat split; auto. intros r H; apply set_nth_other; congruence.
Qed.
Lemma in_place_immutable w f junk t args o : nth_error (w_objs w) t = Some o -> o_immutable o = true -> fst (step w (CInPlace f junk t args)) = w.
Proof. intros E I. cbn [M_PyNum.step]. unfold compute_in_place. rewrite E, I. destruct (values _ _); reflexivity. Qed.

(** An immutable object that is neither made mutable nor shifted in place does not change. *)
Lemma step_immutable w c r o : nth_error (w_objs w) r = Some o -> o_immutable o = true ->
  (forall n, c <> CMutable n \/ n <> r) -> (forall l n k, c <> CShiftInPlace l n k \/ n <> r) -> nth_error (w_objs (fst (step w c))) r = Some o.
Proof.
  intros E I M S. destruct (target c) as [t|] eqn:T; [|apply (extends_step w c T); exact E].
  destruct (Nat.eq_dec r t) as [<-|N]; [|rewrite (proj1 (targeted w c t T)) by congruence; exact E].
  destruct c; cbn in T; try discriminate T; injection T as ->.
  - destruct (M r); congruence.
  - rewrite (in_place_immutable w f junk r args o E I). exact E.
  - destruct (S left_ r n); congruence.
Qed.

(** The shared objects hold what they should and are immutable. *)
Definition holds (w : world) (r : ref) (v : Z) : Prop := nth_error (w_objs w) r = Some {| o_value := v; o_immutable := true |}.
Record good (w : world) : Prop := {
  g_zero : forall r, w_zero w = Some r -> holds w r 0;
  g_one : forall r, w_one w = Some r -> holds w r 1;
  g_two : forall r, w_two w = Some r -> holds w r 2;
  g_cache : forall n r, In (n, r) (w_cache w) -> holds w r n;
  g_keys : forall n r, In (n, r) (w_cache w) -> 0 <= n;
  g_bound : Z.of_nat (length (w_cache w)) <= Z.max 0 (w_max w) }.
Lemma good_init : good world_init.
Proof. split; cbn; try discriminate; try contradiction; lia. Qed.
Lemma good_extends w w' : good w -> extends w w' -> w_zero w' = w_zero w -> w_one w' = w_one w -> w_two w' = w_two w -> w_cache w' = w_cache w -> w_max w' = w_max w -> good w'.
Proof. intros [A B C D Ky E] X Z1 Z2 Z3 Z4 Z5. split; rewrite ?Z1, ?Z2, ?Z3, ?Z4, ?Z5; auto; intros; apply X; [apply A|apply B|apply C|apply D]; auto. Qed.
Lemma good_alloc w v : good w -> good (fst (alloc w v)).
Proof. intros G. apply (good_extends w); auto. apply extends_alloc. Qed.
Lemma good_zero w : good w -> good (fst (zero w)) /\ holds (fst (zero w)) (snd (zero w)) 0 /\ w_zero (fst (zero w)) = Some (snd (zero w)).
Proof.
  intros G. unfold zero. destruct (w_zero w) as [r|] eqn:E; cbn [fst snd]; [split; [auto|split; [apply (g_zero w G); auto|auto]]|].
  pose proof (good_alloc w 0 G) as [A B C D Ky X]. pose proof (alloc_new w 0) as N. destruct (alloc w 0) as [w' r]. cbn [fst snd] in *.
  split; [|split; [exact N|reflexivity]]. split; cbn; auto. intros r' H. injection H as <-. exact N.
Qed.
Lemma good_one w : good w -> good (fst (one w)) /\ holds (fst (one w)) (snd (one w)) 1 /\ w_one (fst (one w)) = Some (snd (one w)).
Proof.
  intros G. unfold one. destruct (w_one w) as [r|] eqn:E; cbn [fst snd]; [split; [auto|split; [apply (g_one w G); auto|auto]]|].
  pose proof (good_alloc w 1 G) as [A B C D Ky X]. pose proof (alloc_new w 1) as N. destruct (alloc w 1) as [w' r]. cbn [fst snd] in *.
  split; [|split; [exact N|reflexivity]]. split; cbn; auto. intros r' H. injection H as <-. exact N.
Qed.
Lemma good_two w : good w -> good (fst (two w)) /\ holds (fst (two w)) (snd (two w)) 2 /\ w_two (fst (two w)) = Some (snd (two w)).
Proof.
  intros G. unfold two. destruct (w_two w) as [r|] eqn:E; cbn [fst snd]; [split; [auto|split; [apply (g_two w G); auto|auto]]|].
  pose proof (good_alloc w 2 G) as [A B C D Ky X]. pose proof (alloc_new w 2) as N. destruct (alloc w 2) as [w' r]. cbn [fst snd] in *.
  split; [|split; [exact N|reflexivity]]. split; cbn; auto. intros r' H. injection H as <-. exact N.
Qed.
Lemma good_from_long w n : good w -> good (fst (from_long w n)).
Proof. intros G. unfold from_long. destruct (long_to_bn n); cbn [fst]; auto. apply (good_alloc w a G). Qed.
Lemma good_compute w f args : good w -> good (fst (compute w f args)).
Proof. intros G. unfold M_PyNum.compute. destruct (values w args); [|auto]. destruct (eval ms f l); [|auto]. apply (good_alloc w z G). Qed.
Lemma good_rand w e a : good w -> good (fst (generate_rand w e a)).
Proof. intros G. unfold generate_rand. destruct (value w a); [|auto]. destruct (z <=? 0); [auto|]. apply (good_alloc w (e mod z) G). Qed.
Lemma long_to_bn_inv n v : long_to_bn n = Ok v -> 0 <= n /\ v = n.
Proof.
  intros H. destruct (Z.lt_ge_cases n 0) as [L|L].
  - unfold long_to_bn, long_to_bytes in H. apply Z.ltb_lt in L. rewrite L in H. discriminate H.
  - rewrite long_to_bn_ok in H by lia. injection H as <-. auto.
Qed.
Lemma from_long_ok w n : 0 <= n -> exists w' r, from_long w n = (w', Ok r) /\ holds w' r n /\ w' = fst (alloc w n).
Proof. intros H. unfold from_long. rewrite long_to_bn_ok by lia. pose proof (alloc_new w n) as N. destruct (alloc w n) as [w' r] eqn:E. exists w', r. auto. Qed.
Lemma from_long_neg w n : n < 0 -> from_long w n = (w, Err InvalidArgument).
Proof. intros H. unfold from_long, long_to_bn, long_to_bytes. apply Z.ltb_lt in H. rewrite H. reflexivity. Qed.
Lemma lookup_in n l r : lookup n l = Some r -> In (n, r) l.
Proof. induction l as [|[k r'] l IH]; cbn; [discriminate|]. destruct (Z.eqb_spec k n) as [->|]; [intros E; injection E as ->; auto|auto]. Qed.

Lemma good_untargeted w c : good w -> target c = None -> good (fst (step w c)).
Proof.
  intros G. destruct c; cbn [target]; intros T; try discriminate T; cbn [M_PyNum.step].
  - apply good_from_long, G.
  - apply (good_alloc w v G).
  - apply good_rand, G.
  - unfold generate_rand_with_start. pose proof (good_compute w FSub [a; start] G) as E.
    destruct (compute w FSub [a; start]) as [w1 [d| | | |]]; try exact E.
    pose proof (good_rand w1 e d E) as E2. destruct (generate_rand w1 e d) as [w2 [r| | | |]]; try exact E2. apply good_compute, E2.
  - pose proof (proj1 (good_zero w G)). destruct (zero w); auto.
  - pose proof (proj1 (good_one w G)). destruct (one w); auto.
  - pose proof (proj1 (good_two w G)). destruct (two w); auto.
  - unfold clone. destruct (value w a); [apply (good_alloc w z G)|auto].
  - apply good_compute, G.
  - unfold shift. destruct (value w a); [|auto]. destruct (shifted left_ z n); [apply (good_alloc w z0 G)|auto].
  - unfold divide. destruct (value w a) as [x|]; [|auto]. destruct (value w b) as [y|]; [|auto].
    destruct (y =? 0); [auto|]. pose proof (good_alloc w (Z.quot x y) G) as E. destruct (alloc w (Z.quot x y)) as [w1 r].
    pose proof (proj1 (good_zero w1 E)) as E2. destruct (zero w1) as [w2 z].
    destruct (value w2 z) as [zv|]; [destruct (negb _)|]; exact E2.
  - unfold add_one. pose proof (proj1 (good_one w G)) as E. destruct (one w) as [w1 r]. apply good_compute, E.
  - unfold subtract_one. pose proof (proj1 (good_one w G)) as E. destruct (one w) as [w1 r]. apply good_compute, E.
  - unfold mod_negate. pose proof (good_compute w FMod [a; m] G) as E. destruct (compute w FMod [a; m]) as [w1 [r| | | |]]; try exact E.
    apply good_compute, E.
  - destruct G as [A B C D Ky E]. split; cbn; auto; try contradiction. lia.
  - unfold cache_get. destruct (lookup n (w_cache w)) eqn:L; [auto|].
    destruct (Z.lt_ge_cases n 0) as [N|N]; [rewrite (from_long_neg w n N); exact G|].
    destruct (from_long_ok w n N) as (w1 & r & F & Hh & Ew). rewrite F. pose proof (good_from_long w n G) as E. rewrite F in E. cbn [fst] in E.
    assert (Ec : w_cache w1 = w_cache w /\ w_max w1 = w_max w) by (subst w1; auto). destruct Ec as [Ec Em].
    destruct (Z.leb_spec (w_max w) (Z.of_nat (length (w_cache w)))) as [|Hm]; [exact E|]. cbn [fst].
    destruct E as [A B C D Ky X]. split; cbn [w_objs w_zero w_one w_two w_cache w_max holds]; auto.
    + intros n' r' [I|I]; [injection I as <- <-; exact Hh|apply D; exact I].
    + intros n' r' [I|I]; [injection I as <- <-; exact N|apply (Ky n' r'); exact I].
    + cbn [length]. rewrite Ec, Em. lia.
Qed.
Lemma shared_immutable w r : good w -> shared w r -> exists v, holds w r v.
Proof.
  intros G [H|[H|[H|H]]]; [exists 0; apply (g_zero w G); auto|exists 1; apply (g_one w G); auto|exists 2; apply (g_two w G); auto|].
  apply in_map_iff in H. destruct H as ([n r'] & E & I). cbn in E. subst r'. exists n. apply (g_cache w G); auto.
Qed.
Lemma good_step w c : good w -> ~ spoils w c -> good (fst (step w c)).
Proof.
  intros G S. destruct (target c) as [t|] eqn:T; [|apply good_untargeted; auto].
  destruct (targeted w c t T) as (F & Z0 & Z1 & Z2 & Zc & Zm).
  assert (K : forall r v, shared w r -> holds w r v -> holds (fst (step w c)) r v).
  { intros r v Sh Hh. apply step_immutable; auto.
    - intros n. destruct c; try (left; discriminate). destruct (Nat.eq_dec n r) as [->|]; [|auto]. left. intros E. injection E as ->. apply S. exact Sh.
    - intros l n k. destruct c; try (left; discriminate). destruct (Nat.eq_dec n r) as [->|]; [|auto]. left. intros E. injection E as -> -> ->. apply S. exact Sh. }
  split; rewrite ?Z0, ?Z1, ?Z2, ?Zc, ?Zm.
  - intros r E. apply K; [left; auto|apply (g_zero w G); auto].
  - intros r E. apply K; [right; left; auto|apply (g_one w G); auto].
  - intros r E. apply K; [right; right; left; auto|apply (g_two w G); auto].
  - intros n r E. apply K; [right; right; right; apply in_map_iff; exists (n, r); auto|apply (g_cache w G); auto].
  - apply (g_keys w G).
  - apply (g_bound w G).
Qed.
Lemma good_run l : forall w, good w -> respectful ms w l -> good (run ms w l).
Proof. induction l as [|c l IH]; cbn; intros w G R; [exact G|]. destruct R as [R1 R2]. apply IH; [apply good_step; auto|exact R2]. Qed.

(** Arithmetic. *)
Lemma eval_arith f l v : eval ms f l = Some v -> arith ms f l v.
Proof.
  unfold eval, arith. destruct f; destruct l as [|a [|b [|m [|? ?]]]]; intros H; try discriminate H; try (injection H as <-; reflexivity).
  - destruct (Z.eqb_spec b 0); [discriminate|]. injection H as <-. split; [apply Z.mod_pos_bound; lia|].
    apply Z.divide_abs_l. exists (a / Z.abs b). pose proof (Z.div_mod a (Z.abs b) ltac:(lia)). lia.
  - destruct (Z.eqb_spec m 0); [discriminate|]. injection H as <-. split; [apply Z.mod_pos_bound; lia|].
    apply Z.divide_abs_l. exists ((a * b) / Z.abs m). pose proof (Z.div_mod (a * b) (Z.abs m) ltac:(lia)). lia.
  - destruct (Z.lt_ge_cases b 0) as [L|L]; [unfold bn_mod_exp in H; apply Z.ltb_lt in L; rewrite L in H; discriminate H|].
    destruct (Z.le_gt_cases m 0) as [M|M].
    { unfold bn_mod_exp in H. apply Z.leb_le in M. rewrite M in H. destruct (b <? 0); discriminate H. }
    rewrite bn_mod_exp_ok in H by lia. injection H as <-. split; [lia|]. split; [apply Z.mod_pos_bound; lia|].
    exists (a ^ b / m). pose proof (Z.div_mod (a ^ b) m ltac:(lia)). lia.
  - injection H as <-. split; [apply Z.gcd_nonneg|apply Zgcd_is_gcd].
  - destruct (bn_mod_inverse a b) eqn:E; cbn in H; try discriminate H. injection H as ->.
    apply bn_mod_inverse_inv in E. destruct E as (P & _ & R & E). split; [lia|].
    apply (proj1 (Z.mod_divide (a * v - 1) b ltac:(lia))). rewrite Zminus_mod, E, <- Zminus_mod, Z.sub_diag, Zmod_0_l. reflexivity.
  - exact H.
Qed.
End Num.
