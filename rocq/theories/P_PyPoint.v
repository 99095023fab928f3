(** C93: the Python point objects. *)
From Verif Require Import Base M_BigNum M_Num M_EC M_Group M_Cipher M_Python M_PyPoint S_PyPoint S_Port L_EC L_Port L_PyPoint L_BigNum L_BigNumP S_BigNum.
From Verif Require L_Toy.

(** A call changes at most the point that it works on in place; a call that fails changes nothing. *)
Theorem C93_frame : forall C X sqrt_p decode fuel h c p e, nth_error (h_points C h) p = Some e ->
  (changes c <> Some p -> nth_error (h_points C (fst (step C X sqrt_p decode fuel h c))) p = Some e) /\
  (is_ok (snd (step C X sqrt_p decode fuel h c)) = false -> fst (step C X sqrt_p decode fuel h c) = h).
Proof.
  intros C X sp dec fu h c p e E. split; [|apply step_failed]. intros N. unfold step, attempt. destruct (call C X sp dec fu h c) as [[h' a]|c'| | |] eqn:K; try exact E.
  apply (call_keeps C X sp dec fu h c h' a K); assumption.
Qed.
Print Assumptions C93_frame.

(** An operation that returns a point returns the result of the group operation: in a new object, or in the point it worked on. *)
Theorem C93_results : forall C X sqrt_p decode fuel h c h' r, ec_laws C ->
  step C X sqrt_p decode fuel h c = (h', Ok (ARef r)) ->
  match c with PMul _ _ | PImul _ _ | PAdd _ _ | PIadd _ _ | PInfinity _ | PFromXY _ _ _ => True | _ => False end ->
  (exists R, at_ref C h' r = Some R /\ group_result C h c R) /\
  match changes c with Some p => r = p | None => at_ref C h r = None end.
Proof.
  intros C X sp dec fu h c h' r L E T. apply step_call_ok in E.
  assert (F : forall g P, at_ref C h (length (h_points C h)) = None /\ at_ref C (fst (new_point C h g P)) (length (h_points C h)) = Some P).
  { intros g P. unfold at_ref. cbn. rewrite nth_error_end. split; [|reflexivity]. rewrite (proj2 (nth_error_None _ _)) by lia. reflexivity. }
  assert (I : forall p e P, nth_error (h_points C h) p = Some e -> at_ref C (fst (set_point C h p (p_group C e) P)) p = Some P).
  { intros p e P Ep. unfold at_ref. cbn. rewrite set_at_same by apply (lt_some _ _ _ Ep). reflexivity. }
  assert (A : forall p e, nth_error (h_points C h) p = Some e -> at_ref C h p = Some (p_value C e)) by (intros p e Ep; unfold at_ref; rewrite Ep; reflexivity).
  destruct c; try contradiction; cbn [call changes group_result] in *; unfold as_ref in E; apply bind_ok in E as ([h1 r1] & E & Q); cbn [fst snd] in Q; injection Q as -> ->.
  - apply construct_ok in E as (_ & P & O & E). injection E as -> ->. destruct (F g P) as [F1 F2]. split; [|exact F1]. exists P. split; [exact F2|].
    unfold py_from_point in O. apply bind_ok in O as (bx & Bx & O). apply bind_ok in O as (b & B & O).
    assert (K : forall z v, long_to_bn z = Ok v -> v = z).
    { intros z v V. destruct (Z.ltb_spec z 0) as [Hz|Hz]; [|rewrite long_to_bn_ok in V by exact Hz; congruence].
      unfold long_to_bn, long_to_bytes in V. apply Z.ltb_lt in Hz. rewrite Hz in V. discriminate. }
    apply K in Bx, B. subst. destruct (ec_of_xy C x y) as [R|] eqn:O1; [|discriminate]. destruct (is_inf C R); [discriminate|]. injection O as <-. apply (xy_of C L), O1.
  - apply construct_ok in E as (_ & P & O & E). injection O as <-. injection E as -> ->. destruct (F g (pinf C)) as [F1 F2]. split; [|exact F1]. exists (pinf C). split; [exact F2|reflexivity].
  - unfold mul in E. apply bind_ok in E as (e & Ep & E). apply bind_ok in E as (z & Z & E). apply point_with_group_ok in Ep as [Ep _]. apply scalar_ok in Z. injection E as <- <-.
    destruct (F (p_group C e) (point_mul C (p_value C e) z)) as [F1 F2]. split; [|exact F1]. eexists. split; [exact F2|]. exists (p_value C e), z. rewrite (point_mul_eq C L). auto.
  - apply imul_ok in E as (e & z & Ep & _ & Z & E). injection E as -> ->. split; [|reflexivity]. eexists. split; [apply I, Ep|]. exists (p_value C e), z. rewrite (point_mul_eq C L). auto.
  - unfold add in E. apply bind_ok in E as (e & Ep & E). apply bind_ok in E as (f & Z & E). apply point_with_group_ok in Ep as [Ep _]. injection E as <- <-.
    unfold point_at in Z. destruct (nth_error (h_points C h) q) as [f'|] eqn:Eq; [|discriminate]. injection Z as ->.
    destruct (F (p_group C e) (padd C (p_value C e) (p_value C f))) as [F1 F2]. split; [|exact F1]. eexists. split; [exact F2|]. exists (p_value C e), (p_value C f). auto.
  - unfold iadd in E. apply bind_ok in E as (e & Ep & E). apply bind_ok in E as (f & Z & E). apply point_with_group_ok in Ep as [Ep _]. injection E as <- <-.
    unfold point_at in Z. destruct (nth_error (h_points C h) q) as [f'|] eqn:Eq; [|discriminate]. injection Z as ->.
    split; [|reflexivity]. eexists. split; [apply I, Ep|]. exists (p_value C e), (p_value C f). auto.
Qed.
Print Assumptions C93_results.

(** Exactly when a call is undefined: it reads the group of a point whose curve is gone, or multiplies with an address that is none. *)
Theorem C93_undefined : forall C X sqrt_p decode fuel h c,
  snd (step C X sqrt_p decode fuel h c) = UB <->
  (exists p, first_point c = Some p /\ orphan C h p /\ forall k, c = PEncryptPoint k p -> exists f, nth_error (h_keys C h) k = Some f /\ k_live f = true) \/
  (exists p s e, (c = PMul p s \/ c = PImul p s) /\ nth_error (h_points C h) p = Some e /\ wild C h s).
Proof.
  intros C X sp dec fu h c. rewrite step_ub.
  assert (W : forall (B : Type) p (f : point C -> outcome B), (forall e, point_with_group C h p = Ok e -> f e <> UB) -> (bind (point_with_group C h p) f = UB <-> orphan C h p)).
  { intros B p f N. rewrite <- point_with_group_ub, bind_ub. split; [intros [E|(e & E & K)]; [exact E|destruct (N e E K)]|left; assumption]. }
  assert (Z : forall (B : Type) p s (f : point C -> Z -> B), bind (point_with_group C h p) (fun e => bind (scalar_value C h s) (fun z => Ok (f e z))) = UB <->
    orphan C h p \/ exists e, nth_error (h_points C h) p = Some e /\ wild C h s).
  { intros B p s f. rewrite bind_ub, point_with_group_ub. split.
    - intros [E|(e & E & K)]; [left; exact E|]. apply bind_ub in K as [K|(z & _ & K)]; [|discriminate]. apply scalar_ub in K. apply point_with_group_ok in E as [E _]. eauto.
    - intros [E|(e & E & K)]; [left; exact E|]. destruct (point_with_group C h p) as [e'|c'| | |] eqn:D; unfold point_with_group, point_at in D; rewrite E in D; cbn [bind] in D.
      + right. exists e'. split; [reflexivity|]. apply scalar_ub in K. rewrite K. reflexivity.
      + destruct (group_live C h (p_group C e)); discriminate.
      + destruct (group_live C h (p_group C e)); discriminate.
      + left. apply point_with_group_ub. unfold point_with_group, point_at. rewrite E. exact D.
      + destruct (group_live C h (p_group C e)); discriminate. }
  assert (R : forall (o : outcome (heap C * nat)), as_ref C o = UB <-> o = UB) by (intros [[? ?]|?| | |]; cbn; split; intros Q; try discriminate; reflexivity).
  assert (R2 : forall (o : outcome (heap C * bytes)), with_bytes C o = UB <-> o = UB) by (intros [[? ?]|?| | |]; cbn; split; intros Q; try discriminate; reflexivity).
  assert (R3 : forall A (g : A -> answer) (o : outcome A), reading C h g o = UB <-> o = UB) by (intros A g [?|?| | |]; cbn; split; intros Q; try discriminate; reflexivity).
  assert (PA : forall q, point_at C h q <> UB) by (intros q; unfold point_at; destruct (nth_error _ q); discriminate).
  assert (NF : forall o : outcome (heap C * answer), first_point c = None -> (forall p s, c <> PMul p s) -> (forall p s, c <> PImul p s) -> o <> UB -> (o = UB <->
    (exists p, first_point c = Some p /\ orphan C h p /\ forall k, c = PEncryptPoint k p -> exists f, nth_error (h_keys C h) k = Some f /\ k_live f = true) \/
    (exists p s e, (c = PMul p s \/ c = PImul p s) /\ nth_error (h_points C h) p = Some e /\ wild C h s))).
  { intros o F M I N. split; [contradiction|]. intros [(p & P & _)|(p & s & e & [K|K] & _)]; [congruence|destruct (M _ _ K)|destruct (I _ _ K)]. }
  assert (NP : forall p, first_point c = Some p -> (forall p s, c <> PMul p s) -> (forall p s, c <> PImul p s) -> (forall k q, c <> PEncryptPoint k q) -> (orphan C h p <->
    (exists p, first_point c = Some p /\ orphan C h p /\ forall k, c = PEncryptPoint k p -> exists f, nth_error (h_keys C h) k = Some f /\ k_live f = true) \/
    (exists p s e, (c = PMul p s \/ c = PImul p s) /\ nth_error (h_points C h) p = Some e /\ wild C h s))).
  { intros p F M I N. split.
    - intros O. left. exists p. split; [exact F|]. split; [exact O|]. intros k K. destruct (N _ _ K).
    - intros [(q & Q & O & _)|(q & s & e & [K|K] & _)]; [congruence|destruct (M _ _ K)|destruct (I _ _ K)]. }
  destruct c; cbn [call].
  - apply NF; try reflexivity; try discriminate.
  - apply NF; try reflexivity; try discriminate. rewrite R. unfold new_cipher. apply bind_not_ub; [apply py_new_not_ub|discriminate].
  - apply NF; try reflexivity; try discriminate. rewrite R. unfold take_curve. apply bind_not_ub; [apply living_not_ub|]. intros e _. destruct (nth_error _ _); discriminate.
  - apply NF; try reflexivity; try discriminate. rewrite R. unfold drop_curve. destruct (nth_error _ _) as [cv|]; [destruct (c_held cv)|]; discriminate.
  - apply NF; try reflexivity; try discriminate. rewrite R. unfold drop_cipher. apply bind_not_ub; [apply living_not_ub|discriminate].
  - apply NF; try reflexivity; try discriminate. rewrite R. apply construct_ub, py_point_not_ub.
  - apply NF; try reflexivity; try discriminate. rewrite R. apply construct_ub, py_from_point_not_ub.
  - apply NF; try reflexivity; try discriminate. rewrite R. apply construct_ub, hash_point_not_ub.
  - apply NF; try reflexivity; try discriminate. rewrite R. apply construct_ub. discriminate.
  - rewrite R. unfold mul. rewrite Z. cbn [first_point]. split.
    + intros [O|(e & E & K)]; [left; exists p|right; exists p, s, e; auto]. split; [reflexivity|]. split; [exact O|discriminate].
    + intros [(q & Q & O & _)|(q & s' & e & [Q|Q] & E & K)]; [injection Q as <-; auto|injection Q as <- <-; eauto|discriminate].
  - rewrite R. unfold imul. rewrite Z. cbn [first_point]. split.
    + intros [O|(e & E & K)]; [left; exists p|right; exists p, s, e; auto]. split; [reflexivity|]. split; [exact O|discriminate].
    + intros [(q & Q & O & _)|(q & s' & e & [Q|Q] & E & K)]; [injection Q as <-; auto|discriminate|injection Q as <- <-; eauto].
  - rewrite R, <- (NP p) by (reflexivity || discriminate). unfold add. apply W. intros e _. apply bind_not_ub; [apply PA|discriminate].
  - rewrite R, <- (NP p) by (reflexivity || discriminate). unfold iadd. apply W. intros e _. apply bind_not_ub; [apply PA|discriminate].
  - rewrite R2, encrypt_point_ub. cbn [first_point]. split.
    + intros [K O]. left. exists p. split; [reflexivity|]. split; [exact O|]. intros k' Q. injection Q as <-. exact K.
    + intros [(q & Q & O & K)|(q & s' & e & [Q|Q] & _)]; try discriminate. injection Q as <-. split; [apply K; reflexivity|exact O].
  - apply NF; try reflexivity; try discriminate. rewrite R2. unfold encrypt. apply bind_not_ub; [apply living_not_ub|]. intros e K. apply living_ok in K as [K L]. apply (on_own_point C h k e _ K L), hash_point_not_ub.
  - apply NF; try reflexivity; try discriminate. rewrite R2. unfold reencrypt. apply bind_not_ub; [apply living_not_ub|]. intros e K. apply living_ok in K as [K L]. apply (on_own_point C h k e _ K L), py_point_not_ub.
  - apply NF; try reflexivity; try discriminate. rewrite R2. unfold decrypt. apply bind_not_ub; [apply living_not_ub|]. intros e _. apply bind_not_ub; [apply construct_ub, py_point_not_ub|].
    intros r E. apply construct_ok in E as (U & P & _ & ->). cbn [fst snd new_point]. erewrite imul_does; [|cbn; apply nth_error_end|exact U|reflexivity]. cbn [bind fst snd set_point].
    erewrite as_bytes_does; [discriminate| |]; [cbn; apply set_at_same; rewrite app_length; cbn; lia|exact U].
  - rewrite R3, <- (NP p) by (reflexivity || discriminate). unfold as_bytes. apply W. discriminate.
  - rewrite R3, <- (NP p) by (reflexivity || discriminate). unfold as_long, as_bytes. rewrite <- (W _ p (fun e => Ok (py_encoded C (p_value C e)))) by discriminate.
    rewrite (bind_ub (bind _ _)). split; [intros [Q|(s & _ & Q)]; [exact Q|discriminate]|left; assumption].
  - rewrite R3, <- (NP p) by (reflexivity || discriminate). unfold at_infinity. apply W. discriminate.
  - rewrite R3, <- (NP p) by (reflexivity || discriminate). unfold equal. apply W. intros e _. apply bind_not_ub; [apply PA|discriminate].
  - rewrite R3, <- (NP p) by (reflexivity || discriminate). unfold unequal, equal.
    rewrite <- (W _ p (fun e => let* f := point_at C h q in Ok (peqb C (p_value C e) (p_value C f)))) by (intros e _; apply bind_not_ub; [apply PA|discriminate]).
    rewrite (bind_ub (bind (point_with_group _ _ _) _)). split; [intros [Q|(s & _ & Q)]; [exact Q|discriminate]|left; assumption].
Qed.
Print Assumptions C93_undefined.

(** A program that lets go of nothing and multiplies with no ordinary number is never undefined. *)
Definition all_alive C (h : heap C) : Prop :=
  (forall g, (g < length (h_curves C h))%nat -> in_use C h g) /\ (forall k e, nth_error (h_keys C h) k = Some e -> k_live e = true).
Lemma alive_points C (h h' : heap C) : h_curves C h' = h_curves C h -> h_keys C h' = h_keys C h -> all_alive C h -> all_alive C h'.
Proof. intros E1 E2 [A B]. unfold all_alive, in_use. rewrite E1, E2. split; [exact A|exact B]. Qed.
Lemma points_only C X sp dec fu h c h' a : call C X sp dec fu h c = Ok (h', a) ->
  match c with PNewCurve _ | PNewCipher _ _ _ | PTakeCurve _ | PDropCurve _ | PDropCipher _ => False | _ => True end -> h_curves C h' = h_curves C h /\ h_keys C h' = h_keys C h.
Proof.
  intros E T. assert (EP : forall h1 k p r, encrypt_point C h1 k p = Ok r -> h_curves C (fst r) = h_curves C h1 /\ h_keys C (fst r) = h_keys C h1).
  { intros h1 k p r K. destruct (encrypt_point_ok _ _ _ _ _ K) as (e & f & Kk & L & Ep & U). rewrite (encrypt_point_does C h1 k p e f Kk L Ep U) in K. injection K as <-. split; reflexivity. }
  destruct c; try contradiction; cbn [call] in E; unfold as_ref, with_bytes, reading in E; (apply bind_ok in E as ([h1 r0] & E & Q)) || (apply bind_ok in E as (r0 & E & Q)); cbn [fst snd] in Q; injection Q as <- <-; try (split; reflexivity).
  1-4: apply construct_ok in E as (_ & P & _ & E); injection E as -> _; split; reflexivity.
  - unfold mul in E. apply bind_ok in E as (f & _ & E). apply bind_ok in E as (z & _ & E). injection E as <- _. split; reflexivity.
  - apply imul_ok in E as (f & z & _ & _ & _ & E). injection E as -> _. split; reflexivity.
  - unfold add in E. apply bind_ok in E as (f & _ & E). apply bind_ok in E as (z & _ & E). injection E as <- _. split; reflexivity.
  - unfold iadd in E. apply bind_ok in E as (f & _ & E). apply bind_ok in E as (z & _ & E). injection E as <- _. split; reflexivity.
  - apply (EP _ _ _ _ E).
  - unfold encrypt in E. apply bind_ok in E as (f & _ & E). apply bind_ok in E as (r & E1 & E). apply construct_ok in E1 as (_ & P & _ & ->). apply (EP _ _ _ _ E).
  - unfold reencrypt in E. apply bind_ok in E as (f & _ & E). apply bind_ok in E as (r & E1 & E). apply construct_ok in E1 as (_ & P & _ & ->). apply (EP _ _ _ _ E).
  - unfold decrypt in E. apply bind_ok in E as (f & _ & E). apply bind_ok in E as (r & E1 & E). apply construct_ok in E1 as (_ & P & _ & ->).
    apply bind_ok in E as (r' & E2 & E). apply bind_ok in E as (t & _ & E). injection E as <- _. apply imul_ok in E2 as (e & z & _ & _ & _ & ->). split; reflexivity.
Qed.
Lemma alive_step C X sp dec fu h c : all_alive C h -> ~ drops c -> all_alive C (fst (step C X sp dec fu h c)).
Proof.
  intros A D. unfold step, attempt. destruct (call C X sp dec fu h c) as [[h' a]|c'| | |] eqn:E; try exact A. cbn [fst].
  destruct c; try (destruct (points_only C X sp dec fu h _ h' a E I) as [E1 E2]; exact (alive_points C h h' E1 E2 A)); cbn [drops] in D; try tauto; clear D.
  - injection E as <- _. destruct A as [A B]. split; [|exact B]. intros g G. cbn in G |- *. rewrite app_length in G. cbn in G. destruct (Nat.eq_dec g (length (h_curves C h))) as [->|N].
    + eexists. split; [cbn; apply nth_error_end|]. left. cbn. lia.
    + destruct (A g ltac:(lia)) as (cv & Ec & H). exists cv. split; [cbn; apply nth_error_keep, Ec|exact H].
  - cbn [call] in E. unfold as_ref in E. apply bind_ok in E as (r & E & Q). injection Q as <- <-. apply bind_ok in E as (cc & _ & E). injection E as <-. destruct A as [A B]. cbn [fst].
    assert (Old : forall k e, nth_error (h_keys C h) k = Some e -> nth_error (h_keys C h ++ [{| k_live := true; k_curve := length (h_curves C h); k_cipher := cc |}]) k = Some e) by (intros; apply nth_error_keep; assumption).
    split.
    + intros g G. cbn in G |- *. rewrite app_length in G. cbn in G. destruct (Nat.eq_dec g (length (h_curves C h))) as [->|N].
      * eexists. split; [cbn; apply nth_error_end|]. right. exists (length (h_keys C h)). eexists. split; [cbn; apply nth_error_end|]. auto.
      * destruct (A g ltac:(lia)) as (cv & Ec & H). exists cv. split; [cbn; apply nth_error_keep, Ec|]. destruct H as [H|(k & e & K & L & Q)]; [left; exact H|right]. exists k, e. split; [cbn; apply Old, K|auto].
    + intros k e K. cbn in K. destruct (Nat.lt_ge_cases k (length (h_keys C h))) as [Lt|Ge].
      * rewrite nth_error_app1 in K by exact Lt. apply (B k e K).
      * rewrite nth_error_app2 in K by exact Ge. destruct (k - length (h_keys C h))%nat as [|[|n]]; try discriminate. injection K as <-. reflexivity.
  - cbn [call] in E. unfold as_ref in E. apply bind_ok in E as (r & E & Q). injection Q as <- <-. unfold take_curve in E. apply bind_ok in E as (f & _ & E).
    destruct (nth_error (h_curves C h) (k_curve f)) as [cv|] eqn:Ec; [|discriminate]. injection E as <-. destruct A as [A B]. split; [|exact B]. intros g G. cbn in G |- *. rewrite set_at_length in G.
    destruct (Nat.eq_dec (k_curve f) g) as [<-|N].
    + eexists. split; [cbn; apply set_at_same, (lt_some _ _ _ Ec)|]. left. cbn. lia.
    + destruct (A g G) as (cv' & Ec' & H). exists cv'. split; [cbn; rewrite set_at_other by exact N; exact Ec'|exact H].
Qed.
Theorem C93_no_drops : forall C X sqrt_p decode fuel l c, Forall (fun d => ~ drops d /\ ~ plain_int d) (l ++ [c]) ->
  snd (step C X sqrt_p decode fuel (run C X sqrt_p decode fuel (heap_init C) l) c) <> UB.
Proof.
  intros C X sp dec fu l c F. apply Forall_app in F as [F Fc]. inversion_clear Fc as [|? ? [Dc Ic] _].
  assert (A : forall l h, Forall (fun d => ~ drops d /\ ~ plain_int d) l -> all_alive C h -> all_alive C (run C X sp dec fu h l)).
  { clear. induction l as [|d l IH]; intros h F A; [exact A|]. inversion_clear F as [|? ? [D _] F']. cbn [run]. apply IH; [exact F'|]. apply alive_step; assumption. }
  specialize (A l (heap_init C) F). set (h := run C X sp dec fu (heap_init C) l) in *.
  assert (S : sane C h) by (apply sane_run, sane_init).
  assert (Al : all_alive C h) by (apply A; split; [cbn; lia|intros [|k] e E; discriminate]). destruct Al as [U K].
  rewrite C93_undefined. intros [(p & _ & (e & Ep & N) & _)|(p & s & e & [->| ->] & _ & W)].
  - apply N, U. apply (proj2 S p e Ep).
  - destruct s as [z|k|z]; cbn in W; [exact W| |apply Ic; exact I]. destruct W as (f & Kf & L). rewrite (K k f Kf) in L. discriminate.
  - destruct s as [z|k|z]; cbn in W; [exact W| |apply Ic; exact I]. destruct W as (f & Kf & L). rewrite (K k f Kf) in L. discriminate.
Qed.
Print Assumptions C93_no_drops.

(** Which objects are in use follows from what the program did: it holds as many references to a curve as it made and took and did not give
    back, and a cipher is gone exactly when the program let go of it. *)
Definition held C (h : heap C) (g : nat) : Z := match nth_error (h_curves C h) g with Some c => Z.of_nat (c_held c) | None => 0 end.
Definition dead C (h : heap C) (k : nat) : Prop := exists e, nth_error (h_keys C h) k = Some e /\ k_live e = false.
Lemma held_step C X sp dec fu h c g : held C (fst (step C X sp dec fu h c)) g = held C h g + reference g c (snd (step C X sp dec fu h c)).
Proof.
  unfold step, attempt. destruct (call C X sp dec fu h c) as [[h' a]|c'| | |] eqn:E; cbn [fst snd]; try (destruct c; cbn [reference]; lia).
  assert (P : match c with PNewCurve _ | PNewCipher _ _ _ | PTakeCurve _ | PDropCurve _ | PDropCipher _ => False | _ => True end -> held C h' g = held C h g + reference g c (Ok a)).
  { intros T. unfold held. destruct (points_only C X sp dec fu h c h' a E T) as [-> _]. destruct c; try contradiction; cbn [reference]; lia. }
  destruct c; try (apply P; exact I); clear P; cbn [call] in E; unfold as_ref in E; apply bind_ok in E as ([h1 r1] & E & Q); injection Q as <- <-; cbn [fst snd reference].
  - injection E as <- <-. unfold held. cbn. destruct (Nat.eqb_spec (length (h_curves C h)) g) as [<-|N].
    + rewrite nth_error_end, (proj2 (nth_error_None _ _)) by lia. cbn. lia.
    + destruct (Nat.lt_ge_cases g (length (h_curves C h))) as [Lt|Ge]; [rewrite nth_error_app1 by exact Lt; lia|].
      rewrite !(proj2 (nth_error_None _ _)) by (rewrite ?app_length; cbn; lia). lia.
  - apply bind_ok in E as (cc & _ & E). injection E as <- <-. unfold held. cbn. destruct (Nat.eq_dec (length (h_curves C h)) g) as [<-|N].
    + rewrite nth_error_end, (proj2 (nth_error_None _ _)) by lia. cbn. lia.
    + destruct (Nat.lt_ge_cases g (length (h_curves C h))) as [Lt|Ge]; [rewrite nth_error_app1 by exact Lt; lia|].
      rewrite !(proj2 (nth_error_None _ _)) by (rewrite ?app_length; cbn; lia). lia.
  - unfold take_curve in E. apply bind_ok in E as (f & _ & E). destruct (nth_error (h_curves C h) (k_curve f)) as [cv|] eqn:Ec; [|discriminate]. injection E as <- <-.
    unfold held. cbn. destruct (Nat.eqb_spec (k_curve f) g) as [<-|N]; [rewrite set_at_same by apply (lt_some _ _ _ Ec); rewrite Ec; cbn [c_held]; lia|rewrite set_at_other by exact N; lia].
  - unfold drop_curve in E. destruct (nth_error (h_curves C h) g0) as [cv|] eqn:Ec; [|discriminate]. destruct (c_held cv) as [|n] eqn:Hn; [discriminate|]. injection E as <- <-.
    unfold held. cbn. destruct (Nat.eqb_spec g0 g) as [<-|N]; [rewrite set_at_same by apply (lt_some _ _ _ Ec); rewrite Ec, Hn; cbn [c_held]; lia|rewrite set_at_other by exact N; lia].
  - unfold drop_cipher in E. apply bind_ok in E as (f & _ & E). injection E as <- <-. unfold held. cbn [h_curves with_keys]. lia.
Qed.
Lemma dead_step C X sp dec fu h c k : dead C (fst (step C X sp dec fu h c)) k <-> dead C h k \/ lets_go k c (snd (step C X sp dec fu h c)).
Proof.
  unfold step, attempt, lets_go. destruct (call C X sp dec fu h c) as [[h' a]|c'| | |] eqn:E; cbn [fst snd is_ok]; try (split; [auto|intros [D|[_ D]]; [exact D|discriminate]]).
  assert (P : match c with PNewCurve _ | PNewCipher _ _ _ | PTakeCurve _ | PDropCurve _ | PDropCipher _ => False | _ => True end -> (dead C h' k <-> dead C h k \/ c = PDropCipher k /\ true = true)).
  { intros T. unfold dead. destruct (points_only C X sp dec fu h c h' a E T) as [_ ->]. split; [auto|]. intros [D|[-> _]]; [exact D|contradiction]. }
  destruct c; try (apply P; exact I); clear P; cbn [call] in E; unfold as_ref in E; apply bind_ok in E as ([h1 r1] & E & Q); injection Q as <- <-; cbn [fst].
  - injection E as <- _. unfold dead. cbn [h_keys with_curves new_curve fst]. split; [auto|intros [D|[D _]]; [exact D|discriminate]].
  - apply bind_ok in E as (cc & _ & E). injection E as <- <-. unfold dead. cbn [h_keys with_keys with_curves]. split.
    + intros (e & K & L). left. exists e. split; [|exact L]. destruct (Nat.lt_ge_cases k (length (h_keys C h))) as [Lt|Ge]; [rewrite nth_error_app1 in K by exact Lt; exact K|].
      rewrite nth_error_app2 in K by exact Ge. destruct (k - length (h_keys C h))%nat as [|[|n]]; try discriminate. injection K as <-. discriminate.
    + intros [(e & K & L)|[D _]]; [|discriminate]. exists e. split; [apply nth_error_keep, K|exact L].
  - unfold take_curve in E. apply bind_ok in E as (f & _ & E). destruct (nth_error _ _); [|discriminate]. injection E as <- _. unfold dead. cbn [h_keys with_curves]. split; [auto|intros [D|[D _]]; [exact D|discriminate]].
  - unfold drop_curve in E. destruct (nth_error _ _) as [cv|]; [|discriminate]. destruct (c_held cv); [discriminate|]. injection E as <- _. unfold dead. cbn [h_keys with_curves]. split; [auto|intros [D|[D _]]; [exact D|discriminate]].
  - unfold drop_cipher in E. apply bind_ok in E as (f & F & E). injection E as <- <-. apply living_ok in F as [F L]. unfold dead. cbn [h_keys with_keys]. destruct (Nat.eq_dec k0 k) as [<-|N].
    + split; [auto|]. intros _. eexists. split; [apply set_at_same, (lt_some _ _ _ F)|reflexivity].
    + rewrite set_at_other by exact N. split; [auto|]. intros [D|[D _]]; [exact D|]. injection D as D. contradiction.
Qed.
Theorem C93_references : forall C X sqrt_p decode fuel l, let h := run C X sqrt_p decode fuel (heap_init C) l in let t := trace C X sqrt_p decode fuel (heap_init C) l in
  (forall g c, nth_error (h_curves C h) g = Some c -> Z.of_nat (c_held c) = sum_over (reference g) t) /\
  (forall k e, nth_error (h_keys C h) k = Some e -> (k_live e = false <-> exists c o, In (c, o) t /\ lets_go k c o)).
Proof.
  intros C X sp dec fu l h t.
  assert (H : forall l h0 g, held C (run C X sp dec fu h0 l) g = held C h0 g + sum_over (reference g) (trace C X sp dec fu h0 l)).
  { clear. induction l as [|c l IH]; intros h0 g; cbn [run trace sum_over fold_right]; [lia|]. rewrite IH, held_step. cbn [fst snd]. unfold sum_over. lia. }
  assert (D : forall l h0 k, dead C (run C X sp dec fu h0 l) k <-> dead C h0 k \/ exists c o, In (c, o) (trace C X sp dec fu h0 l) /\ lets_go k c o).
  { clear. induction l as [|c l IH]; intros h0 k; cbn [run trace].
    - split; [auto|]. intros [D|(c & o & [] & _)]; exact D.
    - rewrite IH, dead_step. split.
      + intros [[D|G]|(c' & o & I & G)]; [auto|right; exists c; eexists; split; [left; reflexivity|exact G]|right; exists c', o; split; [right; exact I|exact G]].
      + intros [D|(c' & o & [I|I] & G)]; [auto|injection I as <- <-; auto|right; eauto]. }
  split.
  - intros g c E. specialize (H l (heap_init C) g). fold h t in H. unfold held in H at 1. rewrite E in H. rewrite H. unfold held. destruct g; reflexivity.
  - intros k e E. specialize (D l (heap_init C) k). fold h t in D. split.
    + intros L. destruct (proj1 D (ex_intro _ e (conj E L))) as [(e' & K & _)|G]; [destruct k; discriminate|exact G].
    + intros G. destruct (proj2 D (or_intror G)) as (e' & K & L). congruence.
Qed.
Print Assumptions C93_references.

(** As long as the program keeps a cipher, its methods on bytes compute what the cipher alone computes, whatever became of the other objects. *)
Theorem C93_cipher : forall C X sqrt_p decode fuel l k e, let h := run C X sqrt_p decode fuel (heap_init C) l in
  nth_error (h_keys C h) k = Some e -> k_live e = true ->
  forall m, snd (step C X sqrt_p decode fuel h (PEncrypt k m)) = (let* s := py_encrypt C X sqrt_p fuel (k_cipher e) m in Ok (ABytes s)) /\
            snd (step C X sqrt_p decode fuel h (PReEncrypt k m)) = (let* s := py_reencrypt C decode (k_cipher e) m in Ok (ABytes s)) /\
            snd (step C X sqrt_p decode fuel h (PDecrypt k m)) = (let* s := py_decrypt C decode (k_cipher e) m in Ok (ABytes s)).
Proof.
  intros C X sp dec fu l k e h K L m. assert (S : sane C h) by (apply sane_run, sane_init). destruct (proj1 S k e K) as (cv & Ec & Hh).
  assert (U : in_use C h (k_curve e)) by (exists cv; split; [exact Ec|right; exists k, e; auto]).
  assert (G : group_live C h (k_curve e) = true) by (apply group_live_in_use, U).
  assert (Q : forall o, snd (attempt C h (with_bytes C (let* f := living_key C h k in let* r := construct C h (k_curve f) o in encrypt_point C (fst r) k (snd r)))) =
    (let* P := o in Ok (ABytes (snd (py_encrypt_point C (k_cipher e) P))))).
  { intros o. rewrite (proj2 (living_ok C h k e)) by auto. cbn [bind]. unfold construct. rewrite G. destruct o as [P|c| | |]; cbn [bind]; try reflexivity.
    erewrite (encrypt_point_does C _ k); [|exact K|exact L|cbn; apply nth_error_end|exact U]. reflexivity. }
  split; [|split].
  - unfold step. cbn [call]. unfold encrypt. specialize (Q (hash_point C X sp fu h (k_curve e) (MBytes m))). rewrite (proj2 (living_ok C h k e)) in * by auto. cbn [bind] in *. rewrite Q.
    unfold hash_point. rewrite Ec, Hh. unfold py_encrypt. destruct (py_hash_point C X sp fu _ _); reflexivity.
  - unfold step. cbn [call]. unfold reencrypt. rewrite Q. unfold py_reencrypt. destruct (py_point C dec (MBytes m)); reflexivity.
  - unfold step. cbn [call]. unfold decrypt. rewrite (proj2 (living_ok C h k e)) by auto. cbn [bind]. unfold construct. rewrite G. unfold py_decrypt.
    destruct (py_point C dec (MBytes m)) as [P|c| | |]; cbn [bind]; try reflexivity. cbn [fst snd new_point].
    erewrite imul_does; [|cbn; apply nth_error_end|exact U|reflexivity]. cbn [bind fst snd set_point].
    erewrite as_bytes_does; cycle 1; [cbn; apply set_at_same; rewrite app_length; cbn; lia|exact U|reflexivity].
Qed.
Print Assumptions C93_cipher.

(** EncryptPoint multiplies the point it is given: after n calls the point of the caller has been multiplied n times. *)
Theorem C93_encrypt_point : forall C X sqrt_p decode fuel h k f p e n, ec_laws C ->
  nth_error (h_keys C h) k = Some f -> k_live f = true -> nth_error (h_points C h) p = Some e -> in_use C h (p_group C e) ->
  let h' := run C X sqrt_p decode fuel h (repeat (PEncryptPoint k p) n) in
  at_ref C h' p = Some (pmul C (pc_key (k_cipher f) ^ Z.of_nat n) (p_value C e)) /\
  snd (step C X sqrt_p decode fuel h' (PEncryptPoint k p)) = Ok (ABytes (py_encoded C (pmul C (pc_key (k_cipher f) ^ Z.of_nat (S n)) (p_value C e)))).
Proof.
  intros C X sp dec fu h k f p e n L K Lf. revert h e K. induction n as [|n IH]; intros h e K E U h'.
  - subst h'. cbn [repeat run]. split; [unfold at_ref; rewrite E; reflexivity|].
    unfold step. cbn [call]. rewrite (encrypt_point_does C h k p e f K Lf E U). cbn [with_bytes bind attempt snd]. rewrite (point_mul_eq C L). rewrite Z.pow_1_r. reflexivity.
  - assert (Sx : fst (step C X sp dec fu h (PEncryptPoint k p)) = fst (set_point C h p (p_group C e) (point_mul C (p_value C e) (pc_key (k_cipher f))))).
    { unfold step. cbn [call]. rewrite (encrypt_point_does C h k p e f K Lf E U). reflexivity. }
    subst h'. cbn [repeat run]. rewrite Sx.
    specialize (IH (fst (set_point C h p (p_group C e) (point_mul C (p_value C e) (pc_key (k_cipher f))))) {| p_group := p_group C e; p_value := point_mul C (p_value C e) (pc_key (k_cipher f)) |} K
      ltac:(cbn; apply set_at_same, (lt_some _ _ _ E)) U). cbn [p_value] in IH. rewrite (point_mul_eq C L) in IH.
    assert (M : forall i, pmul C (pc_key (k_cipher f) ^ Z.of_nat i) (pmul C (pc_key (k_cipher f)) (p_value C e)) = pmul C (pc_key (k_cipher f) ^ Z.of_nat (S i)) (p_value C e)).
    { intros i. rewrite <- (pmul_mul C L). f_equal. rewrite (Nat2Z.inj_succ i), Z.pow_succ_r by lia. lia. }
    rewrite !M in IH. rewrite (point_mul_eq C L). exact IH.
Qed.
Print Assumptions C93_encrypt_point.

(** The bytes and the number of a point other than infinity give the same point back, on any curve object in use; infinity cannot be read back. *)
Theorem C93_roundtrip : forall C X sqrt_p decode fuel h p e g, ec_laws C -> decodes C decode -> (forall P, P <> pinf C -> exists b s, ec_enc C P = b :: s /\ b <> x00) ->
  decode [x00] = Some (pinf C) ->
  nth_error (h_points C h) p = Some e -> in_use C h (p_group C e) -> in_use C h g ->
  exists s z, step C X sqrt_p decode fuel h (PAsBytes p) = (h, Ok (ABytes s)) /\ step C X sqrt_p decode fuel h (PAsLong p) = (h, Ok (ALong z)) /\
  forall m, m = MBytes s \/ m = MInt z ->
    if is_inf C (p_value C e) then step C X sqrt_p decode fuel h (PDecode g m) = (h, Err InvalidArgument)
    else exists h' r, step C X sqrt_p decode fuel h (PDecode g m) = (h', Ok (ARef r)) /\ at_ref C h r = None /\ at_ref C h' r = at_ref C h p.
Proof.
  intros C X sp dec fu h p e g L D F D0 E U G. exists (py_encoded C (p_value C e)), (bytes_to_long (py_encoded C (p_value C e))).
  split; [unfold step; cbn [call]; rewrite (as_bytes_does C h p e E U); reflexivity|]. split; [unfold step; cbn [call]; unfold as_long; rewrite (as_bytes_does C h p e E U); reflexivity|].
  intros m Hm. assert (Em : message_bytes m = Ok (py_encoded C (p_value C e))).
  { destruct Hm as [->| ->]; [reflexivity|]. cbn [message_bytes]. unfold py_encoded. destruct (is_inf C (p_value C e)) eqn:I; [reflexivity|]. apply (is_inf_false C L) in I. destruct (F _ I) as (b & s & -> & N).
    rewrite bytes_to_long_eq. assert (Cn : canonical (b :: s)) by (cbn; intros Q; apply N, bz_inj; exact Q).
    assert (Ps : 0 < of_bytes (b :: s)). { rewrite of_bytes_value. pose proof (canonical_lower b s Cn) as Q. assert (0 < 256 ^ Z.of_nat (length s)) by (apply Z.pow_pos_nonneg; lia). lia. }
    rewrite long_to_bytes_pos by exact Ps. apply canonical_unique; [lia|exact Cn|symmetry; apply of_bytes_value]. }
  unfold step. cbn [call]. unfold construct, py_point. rewrite (proj2 (group_live_in_use C h g) G), Em. cbn [bind]. unfold py_encoded.
  destruct (is_inf C (p_value C e)) eqn:I; [rewrite D0|rewrite (D _ (proj1 (is_inf_false C L _) I)), I].
  - rewrite (proj2 (is_inf_true C L (pinf C)) eq_refl). reflexivity.
  - cbn [bind as_ref attempt fst snd new_point]. eexists _, _. split; [reflexivity|]. unfold at_ref. cbn. rewrite nth_error_end, E. split; [|reflexivity].
    rewrite (proj2 (nth_error_None _ _)) by lia. reflexivity.
Qed.
Print Assumptions C93_roundtrip.

(** == and != tell whether two points are the same point of the curve, and IsAtInfinity whether a point is infinity. *)
Theorem C93_equality : forall C X sqrt_p decode fuel h p q e f, ec_laws C -> nth_error (h_points C h) p = Some e -> in_use C h (p_group C e) -> nth_error (h_points C h) q = Some f ->
  exists b i, step C X sqrt_p decode fuel h (PEqual p q) = (h, Ok (ABool b)) /\ step C X sqrt_p decode fuel h (PUnequal p q) = (h, Ok (ABool (negb b))) /\ (b = true <-> p_value C e = p_value C f) /\
    step C X sqrt_p decode fuel h (PAtInfinity p) = (h, Ok (ABool i)) /\ (i = true <-> p_value C e = pinf C).
Proof.
  intros C X sp dec fu h p q e f L E U F. exists (peqb C (p_value C e) (p_value C f)), (is_inf C (p_value C e)). assert (Q : equal C h p q = Ok (peqb C (p_value C e) (p_value C f))).
  { unfold equal. rewrite (proj2 (point_with_group_ok C h p e)) by auto. cbn [bind]. unfold point_at. rewrite F. reflexivity. }
  unfold step. cbn [call]. unfold unequal, at_infinity. rewrite Q, (proj2 (point_with_group_ok C h p e)) by auto. split; [reflexivity|]. split; [reflexivity|]. split; [apply (peqb_spec C L)|].
  split; [reflexivity|apply (is_inf_true C L)].
Qed.
Print Assumptions C93_equality.

(** The examples: the toy curve with its decoder. *)
Import L_Toy.
Definition toy_program : list pcall := [PNewCurve None; PFromXY 0 0 6; PNewCipher (Some [x05]) 0 None; PTakeCurve 0; PFromXY 1 0 6; PAdd 0 1; PImul 0 (SKeyAddress 0)].
Example C93_case : forall X sqrt_p fuel, let h := run toy X sqrt_p (ec_dec toy) fuel (heap_init toy) toy_program in
  map (fun p => option_map (fun P => dlog (proj1_sig P)) (at_ref toy h p)) [0; 1; 2]%nat = [Some 5; Some 1; Some 2] /\
  snd (step toy X sqrt_p (ec_dec toy) fuel h (PEqual 0 2)) = Ok (ABool false) /\
  snd (step toy X sqrt_p (ec_dec toy) fuel h (PAsLong 1)) = Ok (ALong 512) /\
  snd (step toy X sqrt_p (ec_dec toy) fuel h (PDecode 0 (MInt 512))) = Ok (ARef 3) /\
  (exists e, nth_error (h_keys toy h) 0 = Some e /\ k_live e = true) /\ in_use toy h 0 /\ in_use toy h 1 /\
  Forall (fun d => ~ drops d /\ ~ plain_int d) toy_program.
Proof.
  intros X sp fu h. split; [vm_compute; reflexivity|]. split; [vm_compute; reflexivity|]. split; [vm_compute; reflexivity|]. split; [vm_compute; reflexivity|].
  assert (K : map (fun e => (k_live e, k_curve e)) (h_keys toy h) = [(true, 1%nat)] /\ map c_held (h_curves toy h) = [1; 1]%nat) by (split; vm_compute; reflexivity).
  clearbody h. destruct K as [K1 K2]. destruct (h_keys toy h) as [|e [|]]; try discriminate. injection K1 as K1 _.
  split; [exists e; split; [reflexivity|exact K1]|]. unfold in_use. destruct (h_curves toy h) as [|c1 [|c2 [|]]]; try discriminate. injection K2 as K2 K3.
  split; [exists c1; split; [reflexivity|left; rewrite K2; apply Nat.lt_0_1]|]. split; [exists c2; split; [reflexivity|left; rewrite K3; apply Nat.lt_0_1]|].
  repeat constructor; cbn; tauto.
Qed.
Lemma toy_first_byte : forall P : pt toy, P <> pinf toy -> exists b s, ec_enc toy P = b :: s /\ b <> x00.
Proof.
  intros [[[x y]|] O] N; [|exfalso; apply N; apply tpt_eq; reflexivity]. cbn. eexists _, _. split; [reflexivity|]. intros E. assert (B : 0 <= y mod 2 < 2) by (apply Z.mod_pos_bound; lia).
  assert (H : y mod 2 = 0 \/ y mod 2 = 1) by lia. destruct H as [H|H]; rewrite H in E; discriminate.
Qed.
Example C93_roundtrip_case : ec_laws toy /\ decodes toy (ec_dec toy) /\ (forall P, P <> pinf toy -> exists b s, ec_enc toy P = b :: s /\ b <> x00) /\ ec_dec toy [x00] = Some (pinf toy).
Proof. split; [exact toy_laws|]. split; [intros P HP; apply (enc_dec toy toy_laws P HP)|]. split; [exact toy_first_byte|]. cbn. f_equal. Qed.

(** A point does not keep its curve alive: without a drop of the point, with the program holding the point, the next operation on it reads
    freed memory. The same when the curve belonged to a cipher. *)
Theorem C93_lifetime_refuted : exists C decode, ec_laws C /\ forall X sqrt_p fuel,
  (let h := run C X sqrt_p decode fuel (heap_init C) [PNewCurve None; PFromXY 0 0 6; PDropCurve 0] in
   at_ref C h 0 <> None /\ snd (step C X sqrt_p decode fuel h (PAsBytes 0)) = UB /\ snd (step C X sqrt_p decode fuel h (PMul 0 (SNum 2))) = UB) /\
  (let h := run C X sqrt_p decode fuel (heap_init C) [PNewCipher (Some [x05]) 0 None; PTakeCurve 0; PFromXY 0 0 6; PDropCurve 0] in
   snd (step C X sqrt_p decode fuel h (PEqual 0 0)) = Ok (ABool true) /\
   snd (step C X sqrt_p decode fuel (fst (step C X sqrt_p decode fuel h (PDropCipher 0))) (PEqual 0 0)) = UB).
Proof.
  exists toy, (ec_dec toy). split; [exact toy_laws|]. intros X sp fu. split; [split; [vm_compute; discriminate|split; vm_compute; reflexivity]|split; vm_compute; reflexivity].
Qed.
Print Assumptions C93_lifetime_refuted.

(** The number of a key handed out as priv_key_bn is good only while the key lives, and a plain int as scalar is undefined: 2 * P cannot be
    written with the int 2. *)
Theorem C93_scalar_refuted : exists C decode, ec_laws C /\ forall X sqrt_p fuel,
  (let h := run C X sqrt_p decode fuel (heap_init C) [PNewCurve None; PFromXY 0 0 6; PNewCipher (Some [x05]) 0 None] in
   snd (step C X sqrt_p decode fuel h (PMul 0 (SKeyAddress 0))) = Ok (ARef 1) /\
   snd (step C X sqrt_p decode fuel (fst (step C X sqrt_p decode fuel h (PDropCipher 0))) (PMul 0 (SKeyAddress 0))) = UB /\
   snd (step C X sqrt_p decode fuel h (PMul 0 (SInt 2))) = UB /\ snd (step C X sqrt_p decode fuel h (PMul 0 (SNum 2))) = Ok (ARef 1)).
Proof. exists toy, (ec_dec toy). split; [exact toy_laws|]. intros X sp fu. repeat split; vm_compute; reflexivity. Qed.
Print Assumptions C93_scalar_refuted.

(** EncryptPoint is not a function of the point object: the second call with the same arguments returns other bytes. *)
Theorem C93_encrypt_point_refuted : exists C decode, ec_laws C /\ forall X sqrt_p fuel,
  let h := run C X sqrt_p decode fuel (heap_init C) [PNewCipher (Some [x05]) 0 None; PTakeCurve 0; PFromXY 0 0 6] in
  let '(h1, first) := step C X sqrt_p decode fuel h (PEncryptPoint 0 0) in
  let '(h2, second) := step C X sqrt_p decode fuel h1 (PEncryptPoint 0 0) in
  is_ok first = true /\ is_ok second = true /\ first <> second.
Proof. exists toy, (ec_dec toy). split; [exact toy_laws|]. intros X sp fu. vm_compute. repeat split. discriminate. Qed.
Print Assumptions C93_encrypt_point_refuted.
