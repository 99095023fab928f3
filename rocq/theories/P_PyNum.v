(** C88: Python BigNums are values as long as nobody makes a shared one mutable or shifts it in place. *)
From Verif Require Import Base M_BigNum M_EC L_EC L_Toy M_Python L_Port M_PyNum S_PyNum L_PyNum L_PyNumRes.
From Coq Require Import Znumtheory.

(** A call changes no object except the one it is meant to change. An immutable object is changed only by Mutable and by the shifts in place. *)
Theorem C88_frame : forall mod_sqrt w c r o, nth_error (w_objs w) r = Some o -> target c <> Some r \/
  (o_immutable o = true /\ exists f junk args, c = CInPlace f junk r args) -> nth_error (w_objs (fst (step mod_sqrt w c))) r = Some o.
Proof.
  intros ms w c r o E [T|[I (f & junk & args & ->)]].
  - destruct (target c) as [t|] eqn:Et; [|apply (extends_step ms w c Et); exact E].
    rewrite (proj1 (targeted ms w c t Et)); [exact E|]. intros ->. apply T. reflexivity.
  - rewrite (in_place_immutable ms w f junk r args o E I). exact E.
Qed.
Print Assumptions C88_frame.
(** On an immutable number the operations in place raise ValueError, whatever the arguments; on a mutable one they keep it mutable. *)
Theorem C88_in_place : forall mod_sqrt w f junk (r : ref) args o l, nth_error (w_objs w) r = Some o -> values w (r :: args) = Some l ->
  let (w', answer) := step mod_sqrt w (CInPlace f junk r args) in
  if o_immutable o then w' = w /\ answer = Err InvalidArgument
  else (answer = Ok r \/ answer = Err Internal) /\ exists v, nth_error (w_objs w') r = Some {| o_value := v; o_immutable := false |} /\ (answer = Ok r -> arith mod_sqrt f l v).
Proof.
  intros ms w f junk r args o l E V. cbn [step]. unfold compute_in_place. rewrite E, V. destruct (o_immutable o); [auto|].
  assert (L : (r < length (w_objs w))%nat) by (apply nth_error_Some; congruence).
  destruct (eval ms f l) as [v|] eqn:Ev; (split; [auto|]); cbn [w_objs set_objs]; rewrite set_nth_same by exact L; eexists; (split; [reflexivity|]); [|discriminate].
  intros _. apply eval_arith, Ev.
Qed.
Print Assumptions C88_in_place.
Example C88_in_place_case : let w := run (fun _ _ => None) world_init [CLong 5; CClone 0; CMutable 1; CInPlace FAdd 0 1 [0%nat]; CInPlace FAdd 0 0 [1%nat]] in
  value w 0 = Some 5 /\ value w 1 = Some 10 /\ snd (step (fun _ _ => None) w (CInPlace FAdd 0 0 [1%nat])) = Err InvalidArgument.
Proof. repeat split. Qed.

(** Over a whole history: a number that was never made mutable nor shifted in place keeps its value, its flag and its hash. *)
Theorem C88_immutable : forall mod_sqrt l w r o, nth_error (w_objs w) r = Some o -> o_immutable o = true ->
  ~ In (CMutable r) l -> (forall b n, ~ In (CShiftInPlace b r n) l) ->
  nth_error (w_objs (run mod_sqrt w l)) r = Some o /\ hash_key (run mod_sqrt w l) r = hash_key w r.
Proof.
  intros ms. assert (K : forall l w r o, nth_error (w_objs w) r = Some o -> o_immutable o = true -> ~ In (CMutable r) l -> (forall b n, ~ In (CShiftInPlace b r n) l) ->
    nth_error (w_objs (run ms w l)) r = Some o).
  { induction l as [|c l IH]; intros w r o E I M S; [exact E|]. cbn [run]. apply IH; auto.
    - apply step_immutable; auto.
      + intros n. destruct (Nat.eq_dec n r) as [->|]; [|auto]. left. intros ->. apply M. left; reflexivity.
      + intros b n k. destruct (Nat.eq_dec n r) as [->|]; [|auto]. left. intros ->. apply (S b k). left; reflexivity.
    - intros H. apply M. right; exact H.
    - intros b n H. apply (S b n). right; exact H. }
  intros l w r o E I M S. pose proof (K l w r o E I M S) as H. split; [exact H|]. unfold hash_key. rewrite H, E. reflexivity.
Qed.
Print Assumptions C88_immutable.

(** In every history in which the shared objects (the constants and the cached numbers) are neither made mutable nor shifted in place, every
    call that succeeds returns the number it should, and an exact division is told from one with a remainder. *)
Theorem C88_results : forall mod_sqrt l c, respectful mod_sqrt world_init l -> let w := run mod_sqrt world_init l in
  (forall a, In a (args_of c) -> (a < length (w_objs w))%nat) -> (forall n, c <> CNewCache n) ->
  forall w' r v, step mod_sqrt w c = (w', Ok r) -> value w' r = Some v -> returns mod_sqrt w c v.
Proof.
  intros ms l c R w A N w' r v S V. apply (step_returns ms w c w' r v); auto.
  - apply good_run; [apply good_init|exact R].
  - intros a H. apply exists_value, A, H.
Qed.
Print Assumptions C88_results.
(** Such calls succeed exactly when the result exists (and, in place, the object is mutable). *)
Theorem C88_success : forall mod_sqrt l c, respectful mod_sqrt world_init l -> let w := run mod_sqrt world_init l in
  (forall a, In a (args_of c) -> (a < length (w_objs w))%nat) -> succeeds mod_sqrt w c <-> exists w' r, step mod_sqrt w c = (w', Ok r).
Proof.
  intros ms l c R w A. apply step_succeeds; [apply good_run; [apply good_init|exact R]|]. intros a H. apply exists_value, A, H.
Qed.
Print Assumptions C88_success.
(** A call that fails raises the exception the specification names, and nothing worse. *)
Theorem C88_errors : forall mod_sqrt l c, respectful mod_sqrt world_init l -> let w := run mod_sqrt world_init l in
  (forall a, In a (args_of c) -> (a < length (w_objs w))%nat) -> ~ succeeds mod_sqrt w c -> snd (step mod_sqrt w c) = Err (raises w c).
Proof.
  intros ms l c R w A N. assert (G : good w) by (apply good_run; [apply good_init|exact R]).
  assert (A' : forall a, In a (args_of c) -> exists u, value w a = Some u) by (intros a Ha; apply exists_value, A, Ha).
  destruct (step_answer ms w c G A') as [[r S]|S]; [|exact S]. exfalso. apply N. apply (step_succeeds ms w c G A'). destruct (step ms w c) as [w' o]. cbn in S. subst o. eauto.
Qed.
Print Assumptions C88_errors.
Theorem C88_division : forall mod_sqrt l a b x y, respectful mod_sqrt world_init l -> let w := run mod_sqrt world_init l in
  value w a = Some x -> value w b = Some y -> y <> 0 ->
  ((y | x) -> exists w' r, step mod_sqrt w (CDivide a b) = (w', Ok r) /\ value w' r = Some (x / y)) /\
  (~ (y | x) -> exists w', step mod_sqrt w (CDivide a b) = (w', Err InvalidArgument)).
Proof.
  intros ms l a b x y R w Va Vb Y. pose proof (good_run ms l world_init good_init R) as G. fold w in G. cbn [step]. unfold divide. rewrite Va, Vb.
  destruct (Z.eqb_spec y 0) as [|_]; [contradiction|].
  pose proof (alloc_value w (Z.quot x y)) as K. pose proof (good_alloc w (Z.quot x y) G) as G1.
  destruct (alloc w (Z.quot x y)) as [w1 r1]. cbn [fst snd] in K, G1. destruct (good_zero w1 G1) as (_ & H & _). pose proof (extends_zero w1) as X.
  destruct (zero w1) as [w2 z]. cbn [fst snd] in H, X. rewrite (holds_value _ _ _ H).
  split.
  - intros D. assert (Rm : Z.rem x y = 0) by (apply Z.rem_divide; auto). rewrite Rm. cbn. exists w2, r1. split; [reflexivity|].
    rewrite (value_extends _ _ _ _ X K). f_equal. destruct D as [k ->]. rewrite Z.quot_mul, Z.div_mul by exact Y. reflexivity.
  - intros D. destruct (Z.eqb_spec (Z.rem x y) 0) as [Rm|]; [exfalso; apply D, Z.rem_divide; auto|]. cbn. exists w2. reflexivity.
Qed.
Print Assumptions C88_division.
(** The constants and the cached numbers exist once, and the cache never holds more than its bound. *)
Theorem C88_shared : forall mod_sqrt l, respectful mod_sqrt world_init l -> let w := run mod_sqrt world_init l in
  (forall c, In c [CZero; COne; CTwo] -> exists w' r, step mod_sqrt w c = (w', Ok r) /\ step mod_sqrt w' c = (w', Ok r)) /\
  Z.of_nat (length (w_cache w)) <= Z.max 0 (w_max w) /\
  (forall n, 0 <= n -> Z.of_nat (length (w_cache w)) < w_max w ->
     exists w' r, step mod_sqrt w (CCacheGet n) = (w', Ok r) /\ step mod_sqrt w' (CCacheGet n) = (w', Ok r) /\ value w' r = Some n).
Proof.
  intros ms l R w. pose proof (good_run ms l world_init good_init R) as G. fold w in G. split; [|split; [apply (g_bound w G)|]].
  - intros c [<-|[<-|[<-|[]]]]; cbn [step].
    + pose proof (good_zero w G) as (_ & _ & H). destruct (zero w) as [w' r]. cbn [fst snd] in H. exists w', r. split; [reflexivity|]. unfold zero. rewrite H. reflexivity.
    + pose proof (good_one w G) as (_ & _ & H). destruct (one w) as [w' r]. cbn [fst snd] in H. exists w', r. split; [reflexivity|]. unfold one. rewrite H. reflexivity.
    + pose proof (good_two w G) as (_ & _ & H). destruct (two w) as [w' r]. cbn [fst snd] in H. exists w', r. split; [reflexivity|]. unfold two. rewrite H. reflexivity.
  - intros n Hn M. cbn [step]. unfold cache_get. destruct (lookup n (w_cache w)) as [r|] eqn:L.
    + exists w, r. rewrite L. repeat split. apply holds_value, (g_cache w G), lookup_in, L.
    + destruct (from_long_ok w n Hn) as (w1 & r & F & Hh & _). rewrite F. apply Z.leb_gt in M. rewrite M.
      eexists _, r. split; [reflexivity|]. cbn [w_cache lookup]. rewrite Z.eqb_refl. split; [reflexivity|]. apply holds_value in Hh. exact Hh.
Qed.
Print Assumptions C88_shared.
(** A history that satisfies the hypothesis: mutable copies are worked on, the constants and the cache are used. *)
Example C88_respectful_case : let l := [CNewCache 2; CCacheGet 9; COne; CLong 12; CClone 2; CMutable 3; CInPlace FMul 0 3 [2%nat]; CShiftInPlace true 3 1; CDivide 3 2] in
  respectful (fun _ _ => None) world_init l /\ value (run (fun _ _ => None) world_init l) 3 = Some 288 /\ value (run (fun _ _ => None) world_init l) 1 = Some 1 /\
  value (run (fun _ _ => None) world_init l) 4 = Some 24.
Proof. cbn [respectful]. unfold spoils, shared. vm_compute. intuition discriminate. Qed.

(** Without the hypothesis the constants stop being constants. A shift in place does not ask whether its object is immutable: after
    x = BigNum.One(); x <<= 1 the number One is 2 and AddOne of 5 is 7. After Zero has been made mutable and increased, 6 / 3 is refused, and 7 / 3
    is 2 without an exception. A cached number that is made mutable spoils the cache. *)
Theorem C88_constants_refuted : exists mod_sqrt,
  (let w := run mod_sqrt world_init [COne; CShiftInPlace true 0 1; CLong 5] in
   value (fst (step mod_sqrt w COne)) 0 = Some 2 /\ option_map o_immutable (nth_error (w_objs w) 0) = Some true /\
   exists w' r, step mod_sqrt w (CAddOne 1) = (w', Ok r) /\ value w' r = Some 7) /\
  (let w := run mod_sqrt world_init [CZero; COne; CMutable 0; CInPlace FAdd 0 0 [1%nat]; CLong 6; CLong 7; CLong 3] in
   snd (step mod_sqrt w (CDivide 2 4)) = Err InvalidArgument /\ exists w' r, step mod_sqrt w (CDivide 3 4) = (w', Ok r) /\ value w' r = Some 2) /\
  (let w := run mod_sqrt world_init [CNewCache 10; CCacheGet 3; CMutable 0; CInPlace FAdd 0 0 [0%nat]] in
   exists w' r, step mod_sqrt w (CCacheGet 3) = (w', Ok r) /\ value w' r = Some 6).
Proof.
  exists (fun _ _ => None). split; [|split].
  - split; [reflexivity|]. split; [reflexivity|]. eexists _, _. split; reflexivity.
  - split; [reflexivity|]. eexists _, _. split; reflexivity.
  - eexists _, _. split; reflexivity.
Qed.
Print Assumptions C88_constants_refuted.
(** Equal numbers have different hashes, and Mutable changes the hash of a number. *)
Theorem C88_hash_refuted : exists mod_sqrt w, w = run mod_sqrt world_init [CLong 5; CLong 5] /\
  equal w 0 1 = Some true /\ hash_key w 0 <> hash_key w 1 /\ hash_key (fst (step mod_sqrt w (CMutable 0))) 0 <> hash_key w 0.
Proof. exists (fun _ _ => None). eexists. split; [reflexivity|]. split; [reflexivity|]. split; discriminate. Qed.
Print Assumptions C88_hash_refuted.
(** ModNegate of a multiple of a positive modulus is the modulus itself and not 0, also for 0, where the C++ library returns 0. *)
Theorem C88_negate_refuted : forall mod_sqrt w a m x n, value w a = Some x -> value w m = Some n -> 0 < n -> (n | x) ->
  exists w' r, step mod_sqrt w (CModNegate a m) = (w', Ok r) /\ value w' r = Some n /\ bn_mod_negate 0 n = Ok 0 /\ (x <> 0 -> bn_mod_negate x n = Ok n).
Proof.
  intros ms w a m x n Va Vm P D. cbn [step]. unfold mod_negate, compute. rewrite (values2_intro w a m x n Va Vm).
  cbn [eval]. destruct (Z.eqb_spec n 0) as [|_]; [lia|]. rewrite (Z.abs_eq n) by lia. replace (x mod n) with 0 by (symmetry; apply Z.mod_divide; auto; lia).
  pose proof (alloc_value w 0) as K. pose proof (extends_alloc w 0) as X. destruct (alloc w 0) as [w1 d]. cbn [fst snd] in K, X.
  rewrite (values2_intro w1 m d n 0 (value_extends _ _ _ _ X Vm) K). cbn [eval]. rewrite Z.sub_0_r.
  pose proof (alloc_value w1 n) as K1. destruct (alloc w1 n) as [w2 r]. cbn [fst snd] in K1. exists w2, r. repeat split; auto.
  intros Nx. unfold bn_mod_negate, bn_mod. destruct (Z.eqb_spec x 0); [contradiction|]. destruct (Z.eqb_spec n 0); [lia|]. cbn.
  rewrite Z.abs_eq by lia. replace (x mod n) with 0 by (symmetry; apply Z.mod_divide; auto; lia). f_equal. lia.
Qed.
Print Assumptions C88_negate_refuted.
(** GetAsLong gives the magnitude: the number itself if it is not negative, and for 3 - 5 the number 2. *)
Theorem C88_as_long : forall w r v, value w r = Some v -> get_as_long w r = Some (Z.abs v).
Proof.
  intros w r v. unfold value, get_as_long. destruct (nth_error (w_objs w) r) as [o|]; cbn; [|discriminate]. intros E. injection E as <-. rewrite bn_to_long_abs. reflexivity.
Qed.
Print Assumptions C88_as_long.
Example C88_as_long_case : get_as_long (run (fun _ _ => None) world_init [CLong 3; CLong 5; CCompute FSub [0%nat; 1%nat]]) 2 = Some 2.
Proof. reflexivity. Qed.

(** The random generator of a curve is a generator, and every generator can be drawn, as long as the shared objects are respected. *)
Theorem C88_generator : forall mod_sqrt C l, ec_laws C -> respectful mod_sqrt world_init l -> let w := run mod_sqrt world_init l in
  (forall e, exists w' P, py_random_generator mod_sqrt C w e = (w', Ok P) /\ P <> pinf C /\ good w') /\
  (forall P, P <> pinf C -> exists e w', py_random_generator mod_sqrt C w e = (w', Ok P)).
Proof.
  intros ms C l L R w. pose proof (good_run ms l world_init good_init R) as G. fold w in G. pose proof (order_gt1 C L) as O1.
  assert (K : forall e, exists w' v, py_random_generator ms C w e = (w', Ok (pmul C v (pgen C))) /\ v = e mod (ec_order C - 1) + 1 /\ good w').
  { intros e. unfold py_random_generator. destruct (from_long_ok w (ec_order C) ltac:(lia)) as (w1 & n & F & Hn & _). rewrite F.
    pose proof (good_from_long w (ec_order C) G) as G1. rewrite F in G1. cbn [fst] in G1.
    destruct (good_one w1 G1) as (G2 & Hu & _). pose proof (extends_one w1) as X. destruct (one w1) as [w2 u]. cbn [fst snd] in G2, Hu, X.
    pose proof (value_extends _ _ _ _ X (holds_value _ _ _ Hn)) as Vn. pose proof (holds_value _ _ _ Hu) as Vu.
    unfold generate_rand_with_start, compute. rewrite (values2_intro w2 n u _ _ Vn Vu). cbn [eval].
    pose proof (alloc_value w2 (ec_order C - 1)) as Vd. pose proof (extends_alloc w2 (ec_order C - 1)) as X2. pose proof (good_alloc w2 (ec_order C - 1) G2) as G3.
    destruct (alloc w2 (ec_order C - 1)) as [w3 d]. cbn [fst snd] in Vd, X2, G3. unfold generate_rand. rewrite Vd. destruct (Z.leb_spec (ec_order C - 1) 0); [lia|].
    set (q := e mod (ec_order C - 1)). pose proof (alloc_value w3 q) as Vq. pose proof (extends_alloc w3 q) as X3. pose proof (good_alloc w3 q G3) as G4.
    destruct (alloc w3 q) as [w4 s]. cbn [fst snd] in Vq, X3, G4.
    rewrite (values2_intro w4 s u q 1 Vq (value_extends _ _ _ _ X3 (value_extends _ _ _ _ X2 Vu))). cbn [eval].
    pose proof (alloc_value w4 (q + 1)) as Vr. pose proof (good_alloc w4 (q + 1) G4) as G5. destruct (alloc w4 (q + 1)) as [w5 r]. cbn [fst snd] in Vr, G5. rewrite Vr.
    exists w5, (q + 1). auto. }
  assert (NI : forall v, 0 < v < ec_order C -> pmul C v (pgen C) <> pinf C).
  { intros v Hv E. rewrite <- (pmul_0 C (pgen C)) in E. apply (pmul_inj_iff C L) in E; [|apply (gen_not_inf C L)]. rewrite Z.mod_small, Zmod_0_l in E by lia. lia. }
  split.
  - intros e. destruct (K e) as (w' & v & E & -> & G'). exists w', (pmul C (e mod (ec_order C - 1) + 1) (pgen C)). split; [exact E|]. split; [|exact G'].
    apply NI. pose proof (Z.mod_pos_bound e (ec_order C - 1) ltac:(lia)). lia.
  - intros P NP. destruct (gen_generates C L P) as [k ->].
    assert (Hk : k mod ec_order C <> 0).
    { intros Z0. apply NP. rewrite <- (pmul_0 C (pgen C)). apply (pmul_eqmod C L). exists (k / ec_order C). pose proof (Z.div_mod k (ec_order C) ltac:(lia)). lia. }
    pose proof (Z.mod_pos_bound k (ec_order C) ltac:(lia)). destruct (K (k mod ec_order C - 1)) as (w' & v & E & -> & _).
    exists (k mod ec_order C - 1), w'. rewrite E. f_equal. f_equal. rewrite Z.mod_small by lia. apply (pmul_eqmod C L).
    exists (- (k / ec_order C)). pose proof (Z.div_mod k (ec_order C) ltac:(lia)). lia.
Qed.
Print Assumptions C88_generator.
(** After x = BigNum.One(); x >>= 1 the point at infinity is a possible "random generator". *)
Theorem C88_generator_refuted : exists mod_sqrt C l e, ec_laws C /\ l = [COne; CShiftInPlace false 0 1] /\
  snd (py_random_generator mod_sqrt C (run mod_sqrt world_init l) e) = Ok (pinf C).
Proof.
  exists (fun _ _ => None), toy, [COne; CShiftInPlace false 0 1], 0. split; [exact toy_laws|]. split; [reflexivity|]. vm_compute. reflexivity.
Qed.
Print Assumptions C88_generator_refuted.
Example C88_generator_case : ec_laws toy /\ exists w P, py_random_generator (fun _ _ => None) toy world_init 5 = (w, Ok P) /\ P = pmul toy 6 (pgen toy).
Proof. split; [exact toy_laws|]. eexists _, _. split; vm_compute; reflexivity. Qed.
