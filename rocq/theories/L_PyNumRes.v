(** What the calls on Python BigNums return. *)
From Verif Require Import Base M_BigNum L_BigNum M_Python L_Port M_PyNum S_PyNum L_PyNum.
From Coq Require Import Znumtheory.

Section Num.
Variable ms : Z -> Z -> option Z.
Notation step := (step ms).
Notation compute := (compute ms).

Lemma holds_value w r v : holds w r v -> value w r = Some v.
Proof. unfold holds, value. intros ->. reflexivity. Qed.
Lemma value_extends w w' r v : extends w w' -> value w r = Some v -> value w' r = Some v.
Proof. unfold value. intros X. destruct (nth_error (w_objs w) r) as [o|] eqn:E; [|discriminate]. rewrite (X _ _ E). auto. Qed.
Lemma values_extends w w' : extends w w' -> forall rs vs, values w rs = Some vs -> values w' rs = Some vs.
Proof.
  intros X. induction rs as [|r rs IH]; cbn; intros vs H; [exact H|].
  destruct (value w r) as [v|] eqn:E; [|discriminate]. destruct (values w rs) as [l|]; [|discriminate].
  rewrite (value_extends w w' r v X E), (IH l eq_refl). exact H.
Qed.
Lemma alloc_value w v : value (fst (alloc w v)) (snd (alloc w v)) = Some v.
Proof. apply holds_value, alloc_new. Qed.
Lemma compute_ok w f args w' r : compute w f args = (w', Ok r) -> exists l v, values w args = Some l /\ eval ms f l = Some v /\ value w' r = Some v /\ r = length (w_objs w) /\ w' = fst (alloc w v).
Proof.
  unfold M_PyNum.compute. destruct (values w args) as [l|]; [|discriminate]. destruct (eval ms f l) as [v|] eqn:E; [|discriminate].
  intros H. exists l, v. pose proof (alloc_value w v) as A. unfold alloc in *. injection H as <- <-. auto.
Qed.
Lemma values2 w a b l : values w [a; b] = Some l -> exists x y, value w a = Some x /\ value w b = Some y /\ l = [x; y].
Proof.
  cbn. destruct (value w a) as [x|]; [|discriminate]. destruct (value w b) as [y|]; [|discriminate]. intros H. injection H as <-. eauto.
Qed.
Lemma values2_intro w a b x y : value w a = Some x -> value w b = Some y -> values w [a; b] = Some [x; y].
Proof. cbn. intros -> ->. reflexivity. Qed.
Lemma value_back w w' r v u : extends w w' -> value w r = Some u -> value w' r = Some v -> u = v.
Proof. intros X H K. pose proof (value_extends w w' r u X H). congruence. Qed.
Lemma rand_ok w e a w' r : generate_rand w e a = (w', Ok r) -> exists b, value w a = Some b /\ 0 < b /\ value w' r = Some (e mod b) /\ w' = fst (alloc w (e mod b)).
Proof.
  unfold generate_rand. destruct (value w a) as [b|]; [|discriminate]. destruct (Z.leb_spec b 0) as [|P]; [discriminate|].
  intros H. exists b. pose proof (alloc_value w (e mod b)) as A. unfold alloc in *. injection H as <- <-. auto.
Qed.
Lemma old_value w w' r v : extends w w' -> (exists u, value w r = Some u) -> value w' r = Some v -> value w r = Some v.
Proof. intros X [u H] K. rewrite H. f_equal. exact (value_back w w' r v u X H K). Qed.
Lemma exists_value w r : (r < length (w_objs w))%nat -> exists u, value w r = Some u.
Proof. intros H. unfold value. apply nth_error_Some in H. destruct (nth_error (w_objs w) r); [eexists; reflexivity|congruence]. Qed.

Lemma step_returns w c w' r v : good w -> (forall a, In a (args_of c) -> exists u, value w a = Some u) ->
  (forall n, c <> CNewCache n) -> step w c = (w', Ok r) -> value w' r = Some v -> returns ms w c v.
Proof.
  intros G A N S V. destruct c; cbn [M_PyNum.step args_of] in S, A; cbn [returns].
  - destruct (Z.lt_ge_cases n 0) as [L|L]; [rewrite (from_long_neg w n L) in S; discriminate S|].
    destruct (from_long_ok w n L) as (w1 & r1 & F & Hh & _). rewrite F in S. injection S as <- <-. rewrite (holds_value _ _ _ Hh) in V. congruence.
  - pose proof (alloc_value w v0) as K. unfold alloc in K, S. injection S as <- <-. cbn [fst snd] in K. congruence.
  - apply rand_ok in S. destruct S as (b & B & P & V' & _). exists b. split; [exact B|]. replace v with (e mod b) by congruence. apply Z.mod_pos_bound; lia.
  - unfold generate_rand_with_start in S. destruct (compute w FSub [a; start]) as [w1 [d| | | |]] eqn:C1; try discriminate S.
    destruct (generate_rand w1 e d) as [w2 [q| | | |]] eqn:C2; try discriminate S.
    apply compute_ok in C1. destruct C1 as (l & x & Vl & Ev & Vd & _ & E1). apply values2 in Vl. destruct Vl as (b & s & Vb & Vs & ->).
    cbn [eval] in Ev. injection Ev as <-. apply rand_ok in C2. destruct C2 as (b' & Vd' & P & Vq & E2). replace b' with (b - s) in * by congruence.
    apply compute_ok in S. destruct S as (l2 & y & Vl2 & Ev2 & Vr & _ & _). apply values2 in Vl2. destruct Vl2 as (q' & s' & Vq' & Vs' & ->).
    cbn [eval] in Ev2. injection Ev2 as <-.
    assert (X : extends w w2) by (apply (extends_trans w w1 w2); [rewrite E1; apply extends_alloc|rewrite E2; apply extends_alloc]).
    pose proof (value_back w w2 start s' s X Vs Vs'); subst s'. assert (q' = e mod (b - s)) by congruence. subst q'. exists b, s. split; [auto|]. split; [auto|].
    replace v with (e mod (b - s) + s) by congruence. pose proof (Z.mod_pos_bound e (b - s) ltac:(lia)). lia.
  - destruct (good_zero w G) as (_ & H & _). destruct (zero w) as [w1 r1]. cbn [fst snd] in H. injection S as <- <-. rewrite (holds_value _ _ _ H) in V. congruence.
  - destruct (good_one w G) as (_ & H & _). destruct (one w) as [w1 r1]. cbn [fst snd] in H. injection S as <- <-. rewrite (holds_value _ _ _ H) in V. congruence.
  - destruct (good_two w G) as (_ & H & _). destruct (two w) as [w1 r1]. cbn [fst snd] in H. injection S as <- <-. rewrite (holds_value _ _ _ H) in V. congruence.
  - unfold clone in S. destruct (value w a) as [x|]; [|discriminate S]. pose proof (alloc_value w x) as K. unfold alloc in K, S. injection S as <- <-. cbn [fst snd] in K. congruence.
  - unfold mutable in S. unfold value in *. destruct (nth_error (w_objs w) a) as [o|] eqn:E; [|discriminate S]. injection S as <- <-.
    cbn [w_objs set_objs] in V. rewrite set_nth_same in V by (apply nth_error_Some; congruence). exact V.
  - apply compute_ok in S. destruct S as (l & x & Vl & Ev & Vr & _). exists l. split; [auto|]. replace v with x by congruence. apply eval_arith, Ev.
  - unfold compute_in_place in S. destruct (nth_error (w_objs w) self) as [o|] eqn:E; [|discriminate S].
    destruct (values w (self :: args)) as [l|]; [|discriminate S]. destruct (o_immutable o); [discriminate S|].
    destruct (eval ms f l) as [x|] eqn:Ev; [|discriminate S]. injection S as <- <-. exists l. split; [auto|].
    unfold value in V. cbn [w_objs set_objs] in V. rewrite set_nth_same in V by (apply nth_error_Some; congruence). cbn in V. injection V as <-. apply eval_arith, Ev.
  - unfold shift in S. destruct (value w a) as [x|]; [|discriminate S]. unfold shifted in S. destruct (Z.ltb_spec n 0); [discriminate S|].
    pose proof (alloc_value w (if left_ then x * 2 ^ n else Z.quot x (2 ^ n))) as K. unfold alloc in K, S. injection S as <- <-. cbn [fst snd] in K.
    destruct left_; exists x; repeat split; auto; congruence.
  - unfold shift_in_place in S. destruct (nth_error (w_objs w) a) as [o|] eqn:E; [|discriminate S]. unfold shifted in S. destruct (Z.ltb_spec n 0); [discriminate S|].
    injection S as <- <-. unfold value in V. cbn [w_objs set_objs] in V. rewrite set_nth_same in V by (apply nth_error_Some; congruence). cbn in V. injection V as <-.
    destruct left_; exists (o_value o); (split; [unfold value; rewrite E; reflexivity|auto]).
  - unfold divide in S. destruct (value w a) as [x|]; [|discriminate S]. destruct (value w b) as [y|]; [|discriminate S].
    destruct (Z.eqb_spec y 0) as [|Y]; [discriminate S|]. pose proof (alloc_value w (Z.quot x y)) as K. pose proof (good_alloc w (Z.quot x y) G) as G1.
    destruct (alloc w (Z.quot x y)) as [w1 r1]. cbn [fst snd] in K, G1. destruct (good_zero w1 G1) as (_ & H & _). pose proof (extends_zero w1) as X.
    destruct (zero w1) as [w2 z]. cbn [fst snd] in H, X. rewrite (holds_value _ _ _ H) in S. destruct (Z.eqb_spec (Z.rem x y) 0) as [R|]; cbn [negb] in S; [|discriminate S].
    injection S as <- <-. pose proof (value_extends _ _ _ _ X K) as K2. exists x, y. repeat split; auto. replace v with (Z.quot x y) by congruence.
    pose proof (Z.quot_rem' x y). lia.
  - unfold add_one in S. destruct (good_one w G) as (_ & H & _). pose proof (extends_one w) as X. destruct (one w) as [w1 r1]. cbn [fst snd] in H, X.
    apply compute_ok in S. destruct S as (l & x & Vl & Ev & Vr & _). apply values2 in Vl. destruct Vl as (p & q & Vp & Vq & ->). cbn [eval] in Ev. injection Ev as <-.
    rewrite (holds_value _ _ _ H) in Vq. injection Vq as <-. exists p. split; [apply (old_value w w1); auto; apply A; cbn; auto|congruence].
  - unfold subtract_one in S. destruct (good_one w G) as (_ & H & _). pose proof (extends_one w) as X. destruct (one w) as [w1 r1]. cbn [fst snd] in H, X.
    apply compute_ok in S. destruct S as (l & x & Vl & Ev & Vr & _). apply values2 in Vl. destruct Vl as (p & q & Vp & Vq & ->). cbn [eval] in Ev. injection Ev as <-.
    rewrite (holds_value _ _ _ H) in Vq. injection Vq as <-. exists p. split; [apply (old_value w w1); auto; apply A; cbn; auto|congruence].
  - unfold mod_negate in S. destruct (compute w FMod [a; m]) as [w1 [d| | | |]] eqn:C1; try discriminate S.
    apply compute_ok in C1. destruct C1 as (l & x & Vl & Ev & Vd & _ & E1). apply values2 in Vl. destruct Vl as (p & n & Vp & Vn & ->).
    apply eval_arith in Ev. cbn [arith] in Ev. destruct Ev as [R D].
    apply compute_ok in S. destruct S as (l2 & y & Vl2 & Ev2 & Vr & _ & _). apply values2 in Vl2. destruct Vl2 as (n' & x' & Vn' & Vx' & ->).
    cbn [eval] in Ev2. injection Ev2 as <-. replace x' with x in * by congruence.
    assert (X : extends w w1) by (rewrite E1; apply extends_alloc). pose proof (value_back w w1 m n' n X Vn Vn'). subst n'.
    exists p, n. split; [auto|]. split; [auto|]. replace v with (n - x) by congruence. split; [|lia].
    replace (p + (n - x)) with ((p - x) + n) by lia. apply Z.divide_add_r; [exact D|apply Z.divide_refl].
  - exact I.
  - unfold cache_get in S. destruct (lookup n (w_cache w)) as [r1|] eqn:Lk.
    + injection S as <- <-. apply lookup_in in Lk. rewrite (holds_value _ _ _ (g_cache w G n r1 Lk)) in V. congruence.
    + destruct (Z.lt_ge_cases n 0) as [L|L]; [rewrite (from_long_neg w n L) in S; discriminate S|].
      destruct (from_long_ok w n L) as (w1 & r1 & F & Hh & _). rewrite F in S.
      destruct (w_max w <=? _); injection S as <- <-; apply holds_value in Hh; unfold value in *; cbn [w_objs] in V; congruence.
Qed.

Lemma eval_defined f l : defined ms f l <-> exists v, eval ms f l = Some v.
Proof.
  unfold defined, eval. destruct f; destruct l as [|a [|b [|m [|? ?]]]]; (split; [intros D|intros [v E]]); try contradiction; try discriminate; try (eexists; reflexivity); try exact I.
  - destruct (Z.eqb_spec b 0); [contradiction|eexists; reflexivity].
  - destruct (Z.eqb_spec b 0); [discriminate|auto].
  - destruct (Z.eqb_spec m 0); [contradiction|eexists; reflexivity].
  - destruct (Z.eqb_spec m 0); [discriminate|auto].
  - rewrite bn_mod_exp_ok by lia. eexists; reflexivity.
  - unfold bn_mod_exp in E. destruct (Z.ltb_spec b 0); [discriminate|]. destruct (Z.leb_spec m 0); [discriminate|]. lia.
  - destruct D as [P D]. destruct (bn_mod_inverse_ok a b P D) as (r & E & _). rewrite E. eexists; reflexivity.
  - destruct (bn_mod_inverse a b) eqn:Ei; cbn in E; try discriminate E. apply bn_mod_inverse_inv in Ei. tauto.
  - destruct (ms a b); [eexists; reflexivity|congruence].
  - congruence.
Qed.
Lemma compute_succeeds w f args l : values w args = Some l -> defined ms f l -> exists w' r v, compute w f args = (w', Ok r) /\ value w' r = Some v /\ extends w w' /\ eval ms f l = Some v.
Proof.
  intros V D. apply eval_defined in D. destruct D as [v E]. unfold M_PyNum.compute. rewrite V, E. pose proof (alloc_value w v). pose proof (extends_alloc w v).
  destruct (alloc w v) as [w' r]. exists w', r, v. auto.
Qed.
Lemma compute_fails w f args : ~ (exists l, values w args = Some l /\ defined ms f l) -> forall w' r, compute w f args <> (w', Ok r).
Proof.
  intros N w' r H. apply compute_ok in H. destruct H as (l & v & V & E & _). apply N. exists l. split; [auto|]. apply eval_defined. eauto.
Qed.
Lemma rand_succeeds w e a b : value w a = Some b -> 0 < b -> exists w' r v, generate_rand w e a = (w', Ok r) /\ value w' r = Some v /\ extends w w'.
Proof.
  intros V P. unfold generate_rand. rewrite V. apply Z.leb_gt in P. rewrite P. pose proof (alloc_value w (e mod b)). pose proof (extends_alloc w (e mod b)).
  destruct (alloc w (e mod b)) as [w' r]. exists w', r, (e mod b). auto.
Qed.
Lemma values_args w l : values w l <> None <-> forall a, In a l -> value w a <> None.
Proof.
  induction l as [|a l IH]; cbn [values In]; [split; [contradiction|discriminate]|].
  destruct (value w a) as [v|] eqn:Ea; [|split; [congruence|intros H; exfalso; apply (H a); auto]].
  destruct (values w l) as [vs|]; split.
  - intros _ b [<-|H]; [congruence|]. apply IH; [discriminate|auto].
  - discriminate.
  - congruence.
  - intros H. exfalso. apply IH; [|reflexivity]. intros b Hb. apply H. auto.
Qed.
Lemma step_succeeds w c : good w -> (forall a, In a (args_of c) -> exists u, value w a = Some u) -> succeeds ms w c <-> exists w' r, step w c = (w', Ok r).
Proof.
  intros G A. split.
  - destruct c; cbn [succeeds M_PyNum.step]; intros S.
    + destruct (from_long_ok w n S) as (w1 & r & F & _). eauto.
    + unfold alloc; eauto.
    + destruct S as (b & V & P). destruct (rand_succeeds w e a b V P) as (w1 & r & _ & F & _). eauto.
    + destruct S as (b & s & Vb & Vs & P). unfold generate_rand_with_start.
      destruct (compute_succeeds w FSub [a; start] [b; s] (values2_intro w a start b s Vb Vs) I) as (w1 & d & v & F & Vd & X & Ev). rewrite F. cbn in Ev. injection Ev as <-.
      destruct (rand_succeeds w1 e d (b - s) Vd ltac:(lia)) as (w2 & q & v2 & F2 & Vq & X2). rewrite F2.
      destruct (compute_succeeds w2 FAdd [q; start] [v2; s] (values2_intro w2 q start v2 s Vq (value_extends _ _ _ _ X2 (value_extends _ _ _ _ X Vs))) I) as (w3 & r & v3 & F3 & _).
      rewrite F3. eauto.
    + destruct (zero w); eauto.
    + destruct (one w); eauto.
    + destruct (two w); eauto.
    + destruct S as (x & V). unfold clone. rewrite V. unfold alloc; eauto.
    + destruct S as (x & V). unfold mutable, value in *. destruct (nth_error (w_objs w) a); [eauto|discriminate V].
    + destruct S as (l & V & D). destruct (compute_succeeds w f args l V D) as (w1 & r & v & F & _). eauto.
    + destruct S as (l & V & D & M). unfold compute_in_place. rewrite V. destruct (nth_error (w_objs w) self) as [o|]; [|discriminate M]. cbn in M. injection M as ->.
      apply eval_defined in D. destruct D as [v ->]. eauto.
    + destruct S as (x & V & P). unfold shift, shifted. rewrite V. apply Z.ltb_ge in P. rewrite P. unfold alloc; eauto.
    + destruct S as (x & V & P). unfold shift_in_place, shifted, value in *. destruct (nth_error (w_objs w) a); [|discriminate V]. apply Z.ltb_ge in P. rewrite P. eauto.
    + destruct S as (x & y & Va & Vb & Y & D). unfold divide. rewrite Va, Vb. destruct (Z.eqb_spec y 0); [contradiction|].
      pose proof (good_alloc w (Z.quot x y) G) as G1. destruct (alloc w (Z.quot x y)) as [w1 r1]. cbn [fst] in G1. destruct (good_zero w1 G1) as (_ & H & _).
      destruct (zero w1) as [w2 z]. cbn [fst snd] in H. rewrite (holds_value _ _ _ H). apply Z.rem_divide in D; [|exact Y]. rewrite D. cbn. eauto.
    + destruct S as (x & V). unfold add_one. destruct (good_one w G) as (_ & H & _). pose proof (extends_one w) as X. destruct (one w) as [w1 r1]. cbn [fst snd] in H, X.
      destruct (compute_succeeds w1 FAdd [a; r1] [x; 1] (values2_intro w1 a r1 x 1 (value_extends _ _ _ _ X V) (holds_value _ _ _ H)) I) as (w2 & r & v & F & _). eauto.
    + destruct S as (x & V). unfold subtract_one. destruct (good_one w G) as (_ & H & _). pose proof (extends_one w) as X. destruct (one w) as [w1 r1]. cbn [fst snd] in H, X.
      destruct (compute_succeeds w1 FSub [a; r1] [x; 1] (values2_intro w1 a r1 x 1 (value_extends _ _ _ _ X V) (holds_value _ _ _ H)) I) as (w2 & r & v & F & _). eauto.
    + destruct S as (x & n & Va & Vm & N). unfold mod_negate.
      destruct (compute_succeeds w FMod [a; m] [x; n] (values2_intro w a m x n Va Vm) N) as (w1 & d & v & F & Vd & X & _). rewrite F.
      destruct (compute_succeeds w1 FSub [m; d] [n; v] (values2_intro w1 m d n v (value_extends _ _ _ _ X Vm) Vd) I) as (w2 & r & v2 & F2 & _). eauto.
    + eauto.
    + unfold cache_get. destruct (lookup n (w_cache w)); [eauto|]. destruct (from_long_ok w n S) as (w1 & r & F & _). rewrite F. destruct (w_max w <=? _); eauto.
  - intros (w' & r & S). destruct c; cbn [succeeds M_PyNum.step args_of] in *; try exact I; try (apply A; cbn; auto; fail).
    + destruct (Z.lt_ge_cases n 0) as [L|L]; [rewrite (from_long_neg w n L) in S; discriminate S|exact L].
    + apply rand_ok in S. destruct S as (b & V & P & _). eauto.
    + unfold generate_rand_with_start in S. destruct (compute w FSub [a; start]) as [w1 [d| | | |]] eqn:C1; try discriminate S.
      destruct (generate_rand w1 e d) as [w2 [q| | | |]] eqn:C2; try discriminate S.
      apply compute_ok in C1. destruct C1 as (l & x & Vl & Ev & Vd & _ & E1). apply values2 in Vl. destruct Vl as (b & s & Vb & Vs & ->).
      cbn [eval] in Ev. injection Ev as <-. apply rand_ok in C2. destruct C2 as (b' & Vd' & P & _). exists b, s. repeat split; auto. replace b' with (b - s) in P by congruence. lia.
    + apply compute_ok in S. destruct S as (l & v & V & E & _). exists l. split; [auto|]. apply eval_defined. eauto.
    + unfold compute_in_place in S. destruct (nth_error (w_objs w) self) as [o|]; [|discriminate S].
      destruct (values w (self :: args)) as [l|]; [|discriminate S]. destruct (o_immutable o) eqn:M; [discriminate S|].
      destruct (eval ms f l) as [x|] eqn:Ev; [|discriminate S]. exists l. split; [auto|]. split; [apply eval_defined; eauto|]. cbn. rewrite M. reflexivity.
    + unfold shift, shifted in S. destruct (value w a) as [x|]; [|discriminate S]. destruct (Z.ltb_spec n 0); [discriminate S|]. eauto.
    + unfold shift_in_place, shifted, value in *. destruct (nth_error (w_objs w) a); [|discriminate S]. destruct (Z.ltb_spec n 0); [discriminate S|]. cbn. eauto.
    + pose proof S as S'. unfold divide in S'. destruct (value w a) as [x|] eqn:Va; [|discriminate S']. destruct (value w b) as [y|] eqn:Vb; [|discriminate S'].
      destruct (Z.eqb_spec y 0) as [|Y]; [discriminate S'|]. exists x, y. repeat split; auto.
      pose proof (good_alloc w (Z.quot x y) G) as G1. destruct (alloc w (Z.quot x y)) as [w1 r1]. cbn [fst] in G1. destruct (good_zero w1 G1) as (_ & H & _).
      destruct (zero w1) as [w2 z]. cbn [fst snd] in H. rewrite (holds_value _ _ _ H) in S'. destruct (Z.eqb_spec (Z.rem x y) 0) as [R|]; cbn [negb] in S'; [|discriminate S'].
      apply Z.rem_divide; auto.
    + unfold mod_negate in S. destruct (compute w FMod [a; m]) as [w1 [d| | | |]] eqn:C1; try discriminate S.
      apply compute_ok in C1. destruct C1 as (l & x & Vl & Ev & _). apply values2 in Vl. destruct Vl as (p & n & Vp & Vn & ->).
      assert (D : defined ms FMod [p; n]) by (apply eval_defined; eauto). eauto.
    + unfold cache_get in S. destruct (Z.lt_ge_cases n 0) as [L|L]; [|exact L]. rewrite (from_long_neg w n L) in S.
      destruct (lookup n (w_cache w)) as [q|] eqn:Lk; [|discriminate S]. exfalso. revert L. apply Z.le_ngt, (g_keys w G n q), lookup_in, Lk.
Qed.
Lemma compute_answer w f args l : values w args = Some l -> (exists r, snd (compute w f args) = Ok r) \/ snd (compute w f args) = Err (match f with FModInverse => InvalidArgument | _ => Internal end).
Proof. intros V. unfold M_PyNum.compute. rewrite V. destruct (eval ms f l); [left; unfold alloc; cbn; eauto|right; reflexivity]. Qed.
Lemma values_exist w l : (forall a, In a l -> exists u, value w a = Some u) -> exists vs, values w l = Some vs.
Proof.
  induction l as [|a l IH]; intros A; [exists []; reflexivity|]. destruct (A a (or_introl eq_refl)) as [u U]. destruct IH as [vs V]; [intros b B; apply A; right; exact B|].
  exists (u :: vs). cbn. rewrite U, V. reflexivity.
Qed.
Lemma step_answer w c : good w -> (forall a, In a (args_of c) -> exists u, value w a = Some u) -> (exists r, snd (step w c) = Ok r) \/ snd (step w c) = Err (raises w c).
Proof.
  intros G A. destruct c; cbn [M_PyNum.step raises args_of] in *.
  - destruct (Z.lt_ge_cases n 0) as [L|L]; [rewrite (from_long_neg w n L); auto|]. destruct (from_long_ok w n L) as (w1 & r & F & _). rewrite F. left; cbn; eauto.
  - left; unfold alloc; cbn; eauto.
  - destruct (A a (or_introl eq_refl)) as [u U]. unfold generate_rand. rewrite U. destruct (u <=? 0); [auto|left; unfold alloc; cbn; eauto].
  - destruct (A a (or_introl eq_refl)) as [b U]. destruct (A start (or_intror (or_introl eq_refl))) as [s V]. unfold generate_rand_with_start.
    destruct (compute_succeeds w FSub [a; start] [b; s] (values2_intro w a start b s U V) I) as (w1 & d & v & F & Vd & X & Ev). rewrite F.
    destruct (Z.lt_ge_cases 0 v) as [P|P].
    + destruct (rand_succeeds w1 e d v Vd P) as (w2 & q & v2 & F2 & Vq & X2). rewrite F2.
      destruct (compute_succeeds w2 FAdd [q; start] [v2; s] (values2_intro w2 q start v2 s Vq (value_extends _ _ _ _ X2 (value_extends _ _ _ _ X V))) I) as (w3 & r & v3 & F3 & _).
      rewrite F3. left; cbn; eauto.
    + unfold generate_rand. rewrite Vd. apply Z.leb_le in P. rewrite P. auto.
  - destruct (zero w); left; cbn; eauto.
  - destruct (one w); left; cbn; eauto.
  - destruct (two w); left; cbn; eauto.
  - destruct (A a (or_introl eq_refl)) as [u U]. unfold clone. rewrite U. left; unfold alloc; cbn; eauto.
  - destruct (A a (or_introl eq_refl)) as [u U]. unfold mutable, value in *. destruct (nth_error (w_objs w) a); [left; cbn; eauto|discriminate U].
  - destruct (values_exist w args A) as [l V]. destruct (compute_answer w f args l V) as [S|S]; [left; exact S|right; exact S].
  - destruct (values_exist w (self :: args) A) as [l V]. unfold compute_in_place. rewrite V. destruct (A self (or_introl eq_refl)) as [u U]. unfold value in U.
    destruct (nth_error (w_objs w) self) as [o|]; [|discriminate U]. destruct (o_immutable o); [auto|]. destruct (eval ms f l); [left; cbn; eauto|auto].
  - destruct (A a (or_introl eq_refl)) as [u U]. unfold shift. rewrite U. destruct (shifted left_ u n); [left; unfold alloc; cbn; eauto|auto].
  - destruct (A a (or_introl eq_refl)) as [u U]. unfold shift_in_place, value in *. destruct (nth_error (w_objs w) a) as [o|]; [|discriminate U]. destruct (shifted left_ (o_value o) n); [left; cbn; eauto|auto].
  - destruct (A a (or_introl eq_refl)) as [x U]. destruct (A b (or_intror (or_introl eq_refl))) as [y V]. unfold divide. rewrite U, V. destruct (Z.eqb_spec y 0) as [->|Y]; [auto|].
    pose proof (good_alloc w (Z.quot x y) G) as G1. destruct (alloc w (Z.quot x y)) as [w1 r1]. cbn [fst] in G1. destruct (good_zero w1 G1) as (_ & H & _).
    destruct (zero w1) as [w2 z]. cbn [fst snd] in H. rewrite (holds_value _ _ _ H). destruct (Z.rem x y =? 0); cbn; [eauto|]. right. destruct y; congruence || reflexivity.
  - destruct (A a (or_introl eq_refl)) as [x V]. unfold add_one. destruct (good_one w G) as (_ & H & _). pose proof (extends_one w) as X. destruct (one w) as [w1 r1]. cbn [fst snd] in H, X.
    apply (compute_answer w1 FAdd [a; r1] [x; 1] (values2_intro w1 a r1 x 1 (value_extends _ _ _ _ X V) (holds_value _ _ _ H))).
  - destruct (A a (or_introl eq_refl)) as [x V]. unfold subtract_one. destruct (good_one w G) as (_ & H & _). pose proof (extends_one w) as X. destruct (one w) as [w1 r1]. cbn [fst snd] in H, X.
    apply (compute_answer w1 FSub [a; r1] [x; 1] (values2_intro w1 a r1 x 1 (value_extends _ _ _ _ X V) (holds_value _ _ _ H))).
  - destruct (A a (or_introl eq_refl)) as [x U]. destruct (A m (or_intror (or_introl eq_refl))) as [n V]. unfold mod_negate.
    destruct (Z.eq_dec n 0) as [->|N].
    + unfold M_PyNum.compute. rewrite (values2_intro w a m x 0 U V). cbn. auto.
    + destruct (compute_succeeds w FMod [a; m] [x; n] (values2_intro w a m x n U V) N) as (w1 & d & v & F & Vd & X & _). rewrite F.
      apply (compute_answer w1 FSub [m; d] [n; v] (values2_intro w1 m d n v (value_extends _ _ _ _ X V) Vd)).
  - left; cbn; eauto.
  - unfold cache_get. destruct (lookup n (w_cache w)); [left; cbn; eauto|]. destruct (Z.lt_ge_cases n 0) as [L|L]; [rewrite (from_long_neg w n L); auto|].
    destruct (from_long_ok w n L) as (w1 & r & F & _). rewrite F. destruct (w_max w <=? _); left; cbn; eauto.
Qed.
End Num.
