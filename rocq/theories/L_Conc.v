(** Lemmas about requests that arrive at the same time. *)
From Coq Require Import Permutation.
From Verif Require Import Base M_BigNum M_Num M_EC M_Group M_Cipher M_Paillier M_Protocol S_Protocol M_Conc S_Conc.

Lemma nth_set_same {A} (l : list A) i x y : nth_error l i = Some y -> nth_error (set_nth i x l) i = Some x.
Proof. revert i. induction l as [|z l IH]; intros [|i] H; cbn in *; try discriminate; auto. Qed.
Lemma nth_set_other {A} (l : list A) i j x : i <> j -> nth_error (set_nth i x l) j = nth_error l j.
Proof. revert i j. induction l as [|z l IH]; intros [|i] [|j] H; cbn; try congruence; auto. Qed.
Lemma set_nth_split {A} (l : list A) i x y : nth_error l i = Some y -> exists a b, l = a ++ y :: b /\ set_nth i x l = a ++ x :: b /\ length a = i.
Proof.
  revert i. induction l as [|z l IH]; intros [|i] H; cbn in *; try discriminate.
  - injection H as ->. exists [], l. auto.
  - destruct (IH i H) as (a & b & -> & E & <-). exists (z :: a), b. cbn. rewrite E. auto.
Qed.
Lemma set_nth_same {A} (l : list A) i x : nth_error l i = Some x -> set_nth i x l = l.
Proof. revert i. induction l as [|z l IH]; intros [|i] H; cbn in *; try discriminate; [injection H as ->; reflexivity|]. rewrite IH by exact H. reflexivity. Qed.

Section Conc.
Variable C : ec.
Variable X : externals.
Variable sqrt_p : Z -> Z.
Variable fuel : nat.
Variable flag : bool.
Variable srt : list elem -> list elem.
Notation call_step := (call_step C X sqrt_p fuel flag srt).
Notation sys_step := (sys_step C X sqrt_p fuel flag srt).
Notation sys_run := (sys_run C X sqrt_p fuel flag srt).
Notation locked_step := (locked_step C X sqrt_p fuel flag srt).
Notation locked_run := (locked_run C X sqrt_p fuel flag srt).
Notation handle := (server_handle C X sqrt_p fuel flag srt).
Definition accept : sink server_message := fun _ => Ok tt.

Fixpoint iter (n : nat) (st : server) (m : client_message) (r : server_rand) (a : progress) : server * progress :=
  match n with O => (st, a) | S k => let (st', a') := call_step st m r a in iter k st' m r a' end.
Lemma iter_add n k st m r a : iter (n + k) st m r a = let (st', a') := iter n st m r a in iter k st' m r a'.
Proof. revert st a. induction n as [|n IH]; intros st a; cbn [Nat.add iter]; [reflexivity|]. destruct (call_step st m r a) as [st' a']. apply IH. Qed.
Lemma iter_done n st m r reply status : iter n st m r (Done reply status) = (st, Done reply status).
Proof. induction n as [|n IH]; cbn; auto. Qed.
Lemma iter_done_unique n k st m r a s1 r1 o1 s2 r2 o2 : iter n st m r a = (s1, Done r1 o1) -> iter k st m r a = (s2, Done r2 o2) -> s1 = s2 /\ r1 = r2 /\ o1 = o2.
Proof.
  intros H1 H2. assert (A : iter (n + k) st m r a = (s1, Done r1 o1)) by (rewrite iter_add, H1; apply iter_done).
  rewrite Nat.add_comm, iter_add, H2, iter_done in A. injection A as -> -> ->. auto.
Qed.

Lemma enc_loop m r st c : sv_cipher st = Some c -> forall todo done, exists n, iter n st m r (Encrypting todo done) =
  (st, match mapM (fun x => let* e := enc C X sqrt_p fuel c x in Ok {| el := e; ad := [] |}) todo with Ok es => Done (Some (Some (SRoundOne (done ++ es)))) (Ok tt) | o => Done None (failed o) end).
Proof.
  intros Hc. induction todo as [|x todo IH]; intros done; cbn [mapM].
  - exists 1%nat. cbn. rewrite app_nil_r. reflexivity.
  - destruct (enc C X sqrt_p fuel c x) as [e|e| | |] eqn:E; cbn [bind]; try (exists 1%nat; cbn [iter M_Conc.call_step]; rewrite Hc, E; reflexivity).
    destruct (IH (done ++ [{| el := e; ad := [] |}])) as (n & Hn). exists (S n). cbn [iter M_Conc.call_step]. rewrite Hc, E, Hn. destruct (mapM _ todo); cbn [bind]; try reflexivity. rewrite <- app_assoc. reflexivity.
Qed.
Lemma reenc_loop key es rs r st c pk : sv_cipher st = Some c -> forall todo done, exists n, iter n st (Some (CRoundOne key es rs)) r (Reencrypting pk todo done) =
  match (let* cs := mapM (fun e => let* x := cipher_reencrypt C c (el e) in Ok {| el := x; ad := ad e |}) todo in rest_of_intersection flag srt r pk (done ++ cs) rs) with
  | Ok (size, sb) => ({| sv_inputs := sv_inputs st; sv_cipher := Some c; sv_finished := true |}, Done (Some (Some (SRoundTwo size sb))) (Ok tt))
  | o => (st, Done None (failed o)) end.
Proof.
  intros Hc. induction todo as [|x todo IH]; intros done; cbn [mapM bind].
  - rewrite app_nil_r. destruct (rest_of_intersection flag srt r pk done rs) as [[size sb]|e| | |] eqn:E; [exists 2%nat|exists 1%nat..]; cbn [iter M_Conc.call_step]; rewrite E; cbn [M_Conc.call_step]; rewrite ?Hc; reflexivity.
  - destruct (cipher_reencrypt C c (el x)) as [e|e| | |] eqn:E; cbn [bind]; try (exists 1%nat; cbn [iter M_Conc.call_step]; rewrite Hc, E; reflexivity).
    destruct (IH (done ++ [{| el := e; ad := ad x |}])) as (n & Hn). exists (S n). cbn [iter M_Conc.call_step]. rewrite Hc, E, Hn. destruct (mapM _ todo); cbn [bind]; try reflexivity. rewrite <- app_assoc. reflexivity.
Qed.
(** A call that is left alone does what the sequential handler does. *)
Lemma alone st m r st' reply status : handle r accept st m = (st', reply, status) -> exists n, iter n st m r Waiting = (st', Done reply status).
Proof.
  unfold server_handle. destruct (sv_finished st) eqn:Ef.
  { intros [= <- <- <-]. exists 1%nat. cbn [iter M_Conc.call_step]. rewrite Ef. reflexivity. }
  destruct m as [[|key es rs|]|]; try (intros [= <- <- <-]; exists 1%nat; cbn [iter M_Conc.call_step]; rewrite Ef; reflexivity).
  - unfold encrypt_set. destruct (sv_cipher st) as [c|] eqn:Ec.
    { intros [= <- <- <-]. exists 2%nat. cbn [iter M_Conc.call_step]. rewrite Ef. cbn [iter M_Conc.call_step]. rewrite Ec. reflexivity. }
    destruct (cipher_new C (sr_key r) 0) as [c|e| | |] eqn:En; try (intros [= <- <- <-]; exists 3%nat; cbn [iter M_Conc.call_step]; rewrite Ef; cbn [iter M_Conc.call_step]; rewrite Ec; cbn [iter M_Conc.call_step]; rewrite En; reflexivity).
    set (st1 := {| sv_inputs := sv_inputs st; sv_cipher := Some c; sv_finished := sv_finished st |}).
    destruct (enc_loop (Some CStart) r st1 c eq_refl (sv_inputs st) []) as (n & Hn). intros E. exists (S (S (S n))). cbn [iter M_Conc.call_step]. rewrite Ef. cbn [iter M_Conc.call_step]. rewrite Ec. cbn [iter M_Conc.call_step]. rewrite En. fold st1. rewrite Hn.
    unfold st1 in *. rewrite Ef in *. destruct (mapM _ (sv_inputs st)); injection E as <- <- <-; reflexivity.
  - unfold compute_intersection. destruct (sv_cipher st) as [c|] eqn:Ec.
    2:{ intros [= <- <- <-]. exists 2%nat. cbn [iter M_Conc.call_step]. rewrite Ef. cbn [iter M_Conc.call_step]. rewrite Ec. reflexivity. }
    destruct (public_create flag (of_bytes key) 2 (sr_gen r)) as [pk|e| | |] eqn:Ek; cbn [bind]; try (intros [= <- <- <-]; exists 2%nat; cbn [iter M_Conc.call_step]; rewrite Ef; cbn [iter M_Conc.call_step]; rewrite Ec, Ek; reflexivity).
    destruct (reenc_loop key es rs r st c pk Ec es []) as (n & Hn). intros E. exists (S (S n)). cbn [iter M_Conc.call_step]. rewrite Ef. cbn [iter M_Conc.call_step]. rewrite Ec, Ek, Hn. cbn [app].
    unfold rest_of_intersection. cbv zeta in *. match type of E with (match ?o with _ => _ end = _) => destruct o as [[size sb]|e| | |] end; injection E as <- <- <-; reflexivity.
Qed.
Lemma alone_conv st m r n st' reply status : iter n st m r Waiting = (st', Done reply status) -> handle r accept st m = (st', reply, status).
Proof.
  intros H. destruct (handle r accept st m) as [[s1 r1] o1] eqn:E. destruct (alone st m r s1 r1 o1 E) as (k & Hk). destruct (iter_done_unique _ _ _ _ _ _ _ _ _ _ _ _ H Hk) as (-> & -> & ->). reflexivity.
Qed.

(** ** One call in a system *)
Lemma sys_step_at s i c st a : nth_error (sy_calls s) i = Some c -> call_step (sy_server s) (ca_msg c) (ca_rand c) (ca_at c) = (st, a) ->
  sys_step s i = {| sy_server := st; sy_calls := set_nth i {| ca_msg := ca_msg c; ca_rand := ca_rand c; ca_at := a |} (sy_calls s) |}.
Proof. intros H E. unfold M_Conc.sys_step. rewrite H, E. reflexivity. Qed.
Lemma sys_run_repeat n : forall s i c st a, nth_error (sy_calls s) i = Some c -> iter n (sy_server s) (ca_msg c) (ca_rand c) (ca_at c) = (st, a) ->
  sys_run s (repeat i n) = {| sy_server := st; sy_calls := set_nth i {| ca_msg := ca_msg c; ca_rand := ca_rand c; ca_at := a |} (sy_calls s) |}.
Proof.
  induction n as [|n IH]; intros s i c st a H E.
  - cbn in *. injection E as <- <-. rewrite set_nth_same by (rewrite H; destruct c; reflexivity). destruct s; reflexivity.
  - cbn [repeat]. unfold M_Conc.sys_run. cbn [fold_left]. cbn [iter] in E. destruct (call_step (sy_server s) (ca_msg c) (ca_rand c) (ca_at c)) as [st1 a1] eqn:E1.
    rewrite (sys_step_at s i c st1 a1 H E1). set (s1 := {| sy_server := st1; sy_calls := _ |}). pose proof (nth_set_same (sy_calls s) i {| ca_msg := ca_msg c; ca_rand := ca_rand c; ca_at := a1 |} c H) as N1.
    pose proof (IH s1 i _ st a N1 E) as R. unfold M_Conc.sys_run in R. rewrite R. cbn [sy_calls s1 ca_msg ca_rand]. f_equal.
    clear. revert i. induction (sy_calls s) as [|x l IHl]; intros [|i]; cbn; try reflexivity. rewrite IHl. reflexivity.
Qed.

(** ** Calls that find a key in place *)
Section Key.
Variable st : server.
Variable c : cipher.
Hypothesis Hc : sv_cipher st = Some c.
Hypothesis Hf : sv_finished st = false.

Definition pstep (m : client_message) (r : server_rand) (a : progress) : progress := snd (call_step st m r a).
Fixpoint later (k : nat) (m : client_message) (r : server_rand) (a : progress) : progress := match k with O => a | S n => later n m r (pstep m r a) end.
Lemma later_S k m r a : later (S k) m r a = pstep m r (later k m r a).
Proof. revert a. induction k as [|k IH]; intros a; [reflexivity|]. cbn [later]. rewrite <- IH. reflexivity. Qed.
Definition tame (a : progress) : Prop := a <> Waiting /\ a <> KeyAbsent.
Lemma tame_step st' m r a : sv_cipher st' = Some c -> tame a -> snd (call_step st' m r a) = pstep m r a /\ sv_cipher (fst (call_step st' m r a)) = Some c /\ tame (pstep m r a).
Proof.
  intros H' [T1 T2]. unfold pstep, tame. destruct a as [| | |todo done|pk todo done|size sb|reply status]; try congruence; cbn [M_Conc.call_step].
  - destruct m as [[|key es rs|]|]; rewrite ?H', ?Hc; cbn [fst snd]; repeat split; try assumption; try discriminate; destruct (public_create flag (of_bytes key) 2 (sr_gen r)); discriminate.
  - destruct todo as [|x todo]; [cbn [fst snd]; repeat split; try assumption; discriminate|]. rewrite H', Hc. cbn [fst snd]. repeat split; try assumption; destruct (enc C X sqrt_p fuel c x); discriminate.
  - destruct todo as [|x todo]; [|rewrite H', Hc; cbn [fst snd]; repeat split; try assumption; destruct (cipher_reencrypt C c (el x)); discriminate].
    destruct m as [[|key es rs|]|]; cbn [fst snd]; repeat split; try assumption; try discriminate; destruct (rest_of_intersection flag srt r pk done rs) as [[? ?]| | | |]; discriminate.
  - cbn. repeat split; try assumption; discriminate.
  - cbn. repeat split; try assumption; discriminate.
Qed.
Definition first (m : client_message) : progress := match m with Some CStart | Some (CRoundOne _ _ _) => Begun | _ => Done None (Err InvalidArgument) end.
Lemma first_tame m : tame (first m).
Proof. destruct m as [[|key es rs|]|]; split; discriminate. Qed.
Lemma later_tame k m r : tame (later k m r (first m)).
Proof. induction k as [|k IH]; [apply first_tame|]. rewrite later_S. apply (tame_step st m r _ Hc IH). Qed.
Lemma iter_later n m r : forall st' a, sv_cipher st' = Some c -> tame a -> snd (iter n st' m r a) = later n m r a.
Proof.
  induction n as [|n IH]; intros st' a H' T; [reflexivity|]. cbn [iter later]. destruct (tame_step st' m r a H' T) as (E & Hc' & T'). destruct (call_step st' m r a) as [s1 a1]. cbn [fst snd] in *. subst a1. apply IH; assumption.
Qed.
(** What such a call comes to on its own. *)
Lemma later_alone m r st' reply status : handle r accept st m = (st', reply, status) -> exists n, forall k, (n <= k)%nat -> later k m r (first m) = Done reply status.
Proof.
  intros E. destruct (alone st m r st' reply status E) as ([|n] & Hn); [discriminate|]. exists n.
  assert (Hl : later n m r (first m) = Done reply status).
  { rewrite <- (iter_later n m r st (first m) Hc (first_tame m)). cbn [iter M_Conc.call_step] in Hn. rewrite Hf in Hn. fold (first m) in Hn. rewrite Hn. reflexivity. }
  intros k Hk. replace k with (n + (k - n))%nat by lia. generalize (k - n)%nat as d. induction d as [|d IHd]; [rewrite Nat.add_0_r; exact Hl|]. rewrite Nat.add_succ_r, later_S, IHd. reflexivity.
Qed.

Definition keyed (s : system) : Prop := sv_cipher (sy_server s) = Some c /\ forall i d, nth_error (sy_calls s) i = Some d ->
  ca_at d = Waiting \/ ca_at d = Done None (Err InvalidArgument) \/ exists k, ca_at d = later k (ca_msg d) (ca_rand d) (first (ca_msg d)).
Lemma keyed_step s i : keyed s -> keyed (sys_step s i).
Proof.
  intros [K1 K2]. unfold M_Conc.sys_step. destruct (nth_error (sy_calls s) i) as [d|] eqn:N; [|split; assumption]. destruct (call_step (sy_server s) (ca_msg d) (ca_rand d) (ca_at d)) as [st' a] eqn:E.
  assert (G : sv_cipher st' = Some c /\ (a = Waiting \/ a = Done None (Err InvalidArgument) \/ exists k, a = later k (ca_msg d) (ca_rand d) (first (ca_msg d)))).
  { destruct (K2 i d N) as [W|[W|(k & W)]]; rewrite W in E.
    - cbn [M_Conc.call_step] in E. injection E as <- <-. split; [exact K1|]. destruct (sv_finished (sy_server s)); [auto|]. right. right. exists 0%nat. reflexivity.
    - cbn in E. injection E as <- <-. split; [exact K1|auto].
    - destruct (tame_step (sy_server s) (ca_msg d) (ca_rand d) _ K1 (later_tame k (ca_msg d) (ca_rand d))) as (E1 & E2 & _). rewrite E in E1, E2. cbn [fst snd] in E1, E2. split; [exact E2|]. right. right. exists (S k). rewrite later_S. exact E1. }
  split; [apply G|]. cbn [sy_calls]. intros j e Hj. destruct (Nat.eq_dec i j) as [<-|Nij].
  - rewrite (nth_set_same _ _ _ _ N) in Hj. injection Hj as <-. apply G.
  - rewrite nth_set_other in Hj by exact Nij. apply (K2 j e Hj).
Qed.
Lemma keyed_run schedule : forall s, keyed s -> keyed (sys_run s schedule).
Proof. induction schedule as [|i schedule IH]; intros s K; [exact K|]. apply IH, keyed_step, K. Qed.

(** If all calls pass the test of the flag before one sets it, each comes to what it comes to on its own. *)
Definition entered (s : system) : Prop := sv_cipher (sy_server s) = Some c /\ forall i d, nth_error (sy_calls s) i = Some d -> exists k, ca_at d = later k (ca_msg d) (ca_rand d) (first (ca_msg d)).
Lemma enter_all calls : forall before, not_begun calls -> (forall d, In d before -> ca_at d = first (ca_msg d)) ->
  sys_run {| sy_server := st; sy_calls := before ++ calls |} (seq (length before) (length calls)) =
  {| sy_server := st; sy_calls := before ++ map (fun d => {| ca_msg := ca_msg d; ca_rand := ca_rand d; ca_at := first (ca_msg d) |}) calls |}.
Proof.
  induction calls as [|d calls IH]; intros before Hw Hb; [reflexivity|]. cbn [length seq map]. unfold M_Conc.sys_run. cbn [fold_left].
  assert (Nd : nth_error (before ++ d :: calls) (length before) = Some d) by (rewrite nth_error_app2, Nat.sub_diag by lia; reflexivity).
  set (d' := {| ca_msg := ca_msg d; ca_rand := ca_rand d; ca_at := first (ca_msg d) |}).
  assert (E : sys_step {| sy_server := st; sy_calls := before ++ d :: calls |} (length before) = {| sy_server := st; sy_calls := (before ++ [d']) ++ calls |}).
  { unfold M_Conc.sys_step. cbn [sy_calls sy_server]. rewrite Nd. rewrite (Hw d (or_introl eq_refl)). cbn [M_Conc.call_step]. rewrite Hf. f_equal. fold (first (ca_msg d)). fold d'.
    rewrite <- app_assoc. cbn [app]. clear. induction before as [|x before IH]; cbn; [reflexivity|]. rewrite IH. reflexivity. }
  rewrite E. replace (S (length before)) with (length (before ++ [d'])) by (rewrite app_length; cbn; lia).
  pose proof (IH (before ++ [d'])) as R. unfold M_Conc.sys_run in R. rewrite R.
  - rewrite <- app_assoc. reflexivity.
  - intros x Hx. apply Hw. right. exact Hx.
  - intros x Hx. apply in_app_or in Hx. destruct Hx as [Hx|[<-|[]]]; [apply Hb, Hx|reflexivity].
Qed.
Definition end_of (d : call) : progress := let '(_, reply, status) := handle (ca_rand d) accept st (ca_msg d) in Done reply status.
Lemma finish_one s i : entered s -> exists n, entered (sys_run s (repeat i n)) /\ (forall j, j <> i -> nth_error (sy_calls (sys_run s (repeat i n))) j = nth_error (sy_calls s) j) /\
  forall d, nth_error (sy_calls s) i = Some d -> nth_error (sy_calls (sys_run s (repeat i n))) i = Some {| ca_msg := ca_msg d; ca_rand := ca_rand d; ca_at := end_of d |}.
Proof.
  intros [K1 K2]. destruct (nth_error (sy_calls s) i) as [d|] eqn:N.
  2:{ exists 0%nat. cbn. repeat split; try assumption. intros d Hd. discriminate. }
  destruct (K2 i d N) as (k & Hk). unfold end_of. destruct (handle (ca_rand d) accept st (ca_msg d)) as [[st' reply] status] eqn:E. destruct (later_alone _ _ _ _ _ E) as (n & Hn). exists n.
  pose proof (later_tame k (ca_msg d) (ca_rand d)) as T. rewrite <- Hk in T.
  assert (Hl : later n (ca_msg d) (ca_rand d) (ca_at d) = Done reply status).
  { rewrite Hk. rewrite <- (Hn (k + n)%nat ltac:(lia)). clear. generalize (first (ca_msg d)) as a. induction k as [|k IH]; intros a; cbn [later Nat.add]; [reflexivity|apply IH]. }
  assert (Hi : sv_cipher (fst (iter n (sy_server s) (ca_msg d) (ca_rand d) (ca_at d))) = Some c).
  { revert K1 T. generalize (sy_server s) as s0, (ca_at d) as a. clear Hn Hl. induction n as [|n IH]; intros s0 a K T; [exact K|]. cbn [iter]. destruct (tame_step s0 (ca_msg d) (ca_rand d) a K T) as (E1 & E2 & E3).
    destruct (call_step s0 (ca_msg d) (ca_rand d) a) as [s1 a1]. cbn [fst snd] in *. subst a1. apply IH; assumption. }
  pose proof (iter_later n (ca_msg d) (ca_rand d) (sy_server s) (ca_at d) K1 T) as Ha. destruct (iter n (sy_server s) (ca_msg d) (ca_rand d) (ca_at d)) as [s1 a1] eqn:Ei. cbn [fst snd] in Hi, Ha.
  rewrite (sys_run_repeat n s i d s1 a1 N Ei). cbn [sy_server sy_calls]. rewrite Hl in Ha. subst a1. split; [split; [exact Hi|]|split].
  - cbn [sy_calls]. intros j e Hj. destruct (Nat.eq_dec i j) as [<-|Nij].
    + rewrite (nth_set_same _ _ _ _ N) in Hj. injection Hj as <-. exists n. symmetry. apply Hn. lia.
    + rewrite nth_set_other in Hj by exact Nij. apply (K2 j e Hj).
  - intros j Hj. apply nth_set_other. congruence.
  - intros d' [= <-]. rewrite E. apply (nth_set_same _ _ _ _ N).
Qed.
Lemma finish_all s : entered s -> forall n, exists schedule, entered (sys_run s schedule) /\ forall i d, nth_error (sy_calls s) i = Some d ->
  nth_error (sy_calls (sys_run s schedule)) i = Some {| ca_msg := ca_msg d; ca_rand := ca_rand d; ca_at := if (i <? n)%nat then end_of d else ca_at d |}.
Proof.
  intros K. induction n as [|n IH].
  - exists []. split; [exact K|]. intros i d Hd. cbn. rewrite Hd. destruct d; reflexivity.
  - destruct IH as (sch & K' & Hs). destruct (finish_one (sys_run s sch) n K') as (k & K2 & Ho & Hi). exists (sch ++ repeat n k).
    assert (E : sys_run s (sch ++ repeat n k) = sys_run (sys_run s sch) (repeat n k)) by (unfold M_Conc.sys_run; apply fold_left_app). rewrite E. split; [exact K2|].
    intros i d Hd. pose proof (Hs i d Hd) as H1. destruct (Nat.eq_dec i n) as [->|Ni].
    + rewrite (Hi _ H1). cbn [ca_msg ca_rand]. destruct (Nat.ltb_spec n (S n)); [|lia]. reflexivity.
    + rewrite (Ho i Ni), H1. destruct (Nat.ltb_spec i n), (Nat.ltb_spec i (S n)); try lia; reflexivity.
Qed.
End Key.

(** ** With a lock *)
Section Locked.
Variable inputs : list bytes.
Notation history := (server_history C X sqrt_p fuel flag srt inputs).
Definition idle (c : call) : Prop := on_its_way c = false.
Definition serial (s : system) : Prop := exists h st0, history h st0 /\ Permutation (answers (sy_calls s)) (replies h) /\
  ((sy_server s = st0 /\ Forall idle (sy_calls s)) \/
   exists before c after k, sy_calls s = before ++ c :: after /\ Forall idle before /\ Forall idle after /\ on_its_way c = true /\ iter k st0 (ca_msg c) (ca_rand c) Waiting = (sy_server s, ca_at c)).
Lemma answers_app a b : answers (a ++ b) = answers a ++ answers b.
Proof. apply flat_map_app. Qed.
Lemma Forall_idle l : forallb (fun c => negb (on_its_way c)) l = true <-> Forall idle l.
Proof. rewrite forallb_forall, Forall_forall. unfold idle. split; intros H c Hc; specialize (H c Hc); destruct (on_its_way c); congruence || discriminate || reflexivity. Qed.
Lemma done_stays s i c reply status : In c (sy_calls s) -> ca_at c = Done reply status -> In c (sy_calls (sys_step s i)).
Proof.
  intros Hin Hd. unfold M_Conc.sys_step. destruct (nth_error (sy_calls s) i) as [d|] eqn:N; [|exact Hin]. destruct (call_step (sy_server s) (ca_msg d) (ca_rand d) (ca_at d)) as [st a] eqn:E. cbn [sy_calls].
  destruct (set_nth_split (sy_calls s) i {| ca_msg := ca_msg d; ca_rand := ca_rand d; ca_at := a |} d N) as (x & y & Ex & -> & _). rewrite Ex in Hin. apply in_app_or in Hin. apply in_or_app. destruct Hin as [Hin|[<-|Hin]]; [auto| |right; right; exact Hin].
  right. left. rewrite Hd in E. cbn in E. injection E as _ <-. rewrite <- Hd. destruct d; reflexivity.
Qed.
(** The call that holds the lock, or takes it, moves on. *)
Lemma serial_move h st0 s i before c after k : history h st0 -> Permutation (answers (sy_calls s)) (replies h) -> sy_calls s = before ++ c :: after -> length before = i -> Forall idle before -> Forall idle after ->
  iter k st0 (ca_msg c) (ca_rand c) Waiting = (sy_server s, ca_at c) -> answers [c] = [] -> all_alive (sy_calls (sys_step s i)) -> serial (sys_step s i).
Proof.
  intros Hh Hp Es Hi Fb Fa Hk Hnone Hal. assert (N : nth_error (sy_calls s) i = Some c) by (rewrite Es, nth_error_app2, <- Hi, Nat.sub_diag by lia; reflexivity).
  destruct (call_step (sy_server s) (ca_msg c) (ca_rand c) (ca_at c)) as [st a] eqn:E. rewrite (sys_step_at s i c st a N E) in *. set (c' := {| ca_msg := ca_msg c; ca_rand := ca_rand c; ca_at := a |}) in *.
  assert (Es' : set_nth i c' (sy_calls s) = before ++ c' :: after). { rewrite Es, <- Hi. clear. induction before as [|x b IH]; cbn; [reflexivity|]. rewrite IH. reflexivity. }
  rewrite Es' in *. cbn [sy_calls] in Hal. 
  assert (Hk' : iter (k + 1) st0 (ca_msg c) (ca_rand c) Waiting = (st, a)) by (rewrite iter_add, Hk; cbn [iter]; rewrite E; reflexivity).
  assert (Hans : answers (sy_calls s) = answers before ++ answers after) by (rewrite Es, answers_app; change (c :: after) with ([c] ++ after); rewrite answers_app, Hnone; reflexivity).
  destruct (on_its_way c') eqn:Ow.
  - exists h, st0. cbn [sy_calls sy_server]. split; [exact Hh|]. split.
    + rewrite answers_app. change (c' :: after) with ([c'] ++ after). rewrite answers_app. assert (En : answers [c'] = []) by (unfold on_its_way in Ow; cbn [ca_at c'] in Ow; unfold answers; cbn [flat_map ca_at c']; destruct a; try discriminate; reflexivity).
      rewrite En. cbn [app]. rewrite <- Hans. exact Hp.
    + right. exists before, c', after, (k + 1)%nat. repeat split; try assumption.
  - assert (Hdone : exists reply status, a = Done reply status).
    { unfold on_its_way in Ow. cbn [ca_at c'] in Ow. destruct a; try discriminate; [|eauto]. exfalso.
      clear - Hk'. rewrite Nat.add_1_r in Hk'. cbn [iter M_Conc.call_step] in Hk'. revert Hk'. set (b := if sv_finished st0 then _ else _). assert (Hb : b <> Waiting) by (unfold b; destruct (sv_finished st0); [discriminate|destruct (ca_msg c) as [[| |]|]; discriminate]).
      generalize st0. generalize dependent b. induction k as [|k IH]; intros b Hb s1 E; cbn [iter] in E; [congruence|]. 
      assert (Hb' : snd (call_step s1 (ca_msg c) (ca_rand c) b) <> Waiting).
      { destruct b as [| | |[|x todo] done|pk [|x todo] done|size sb|reply status]; try congruence; cbn [M_Conc.call_step].
        - destruct (ca_msg c) as [[|key es rs|]|]; cbn [snd]; try discriminate; destruct (sv_cipher s1); try discriminate; destruct (public_create flag (of_bytes key) 2 (sr_gen (ca_rand c))); discriminate.
        - destruct (cipher_new C (sr_key (ca_rand c)) 0); discriminate.
        - discriminate.
        - destruct (sv_cipher s1); [|discriminate]. cbn [snd]. destruct (enc C X sqrt_p fuel c0 x); discriminate.
        - destruct (ca_msg c) as [[|key es rs|]|]; cbn [snd]; try discriminate. destruct (rest_of_intersection flag srt (ca_rand c) pk done rs) as [[? ?]| | | |]; discriminate.
        - destruct (sv_cipher s1); [|discriminate]. cbn [snd]. destruct (cipher_reencrypt C c0 (el x)); discriminate.
        - discriminate.
        - discriminate. }
      destruct (call_step s1 (ca_msg c) (ca_rand c) b) as [s2 b2]. exact (IH b2 Hb' s2 E). }
    destruct Hdone as (reply & status & ->). pose proof (alone_conv _ _ _ _ _ _ _ Hk') as Hsv.
    exists (h ++ [{| se_rand := ca_rand c; se_sink := accept; se_msg := ca_msg c; se_reply := reply; se_status := status |}]), st. cbn [sy_calls sy_server]. split; [|split].
    + apply (sh_step C X sqrt_p fuel flag srt inputs h st0); [exact Hh|exact Hsv|]. apply (Hal c' reply status); [apply in_or_app; right; left; reflexivity|reflexivity].
    + unfold replies. rewrite flat_map_app. fold (replies h). cbn [flat_map se_reply]. rewrite app_nil_r. rewrite answers_app. change (c' :: after) with ([c'] ++ after). rewrite answers_app.
      assert (En : answers [c'] = match reply with Some m => [m] | None => [] end) by (unfold answers; cbn; destruct reply; reflexivity). rewrite En.
      rewrite (Permutation_app_comm _ (answers after)). rewrite app_assoc. apply Permutation_app_tail. rewrite <- Hans. exact Hp.
    + left. split; [reflexivity|]. apply Forall_app. split; [exact Fb|]. constructor; [exact Ow|exact Fa].
Qed.
Lemma serial_step s i : serial s -> all_alive (sy_calls (locked_step s i)) -> serial (locked_step s i).
Proof.
  intros (h & st0 & Hh & Hp & D) Hal. unfold M_Conc.locked_step in *. destruct (nth_error (sy_calls s) i) as [c|] eqn:N; [|exists h, st0; auto].
  destruct (on_its_way c || forallb _ (sy_calls s)) eqn:Lk; [|exists h, st0; auto].
  destruct (set_nth_split (sy_calls s) i c c N) as (x & y & Ex & _ & Lx).
  destruct D as [[Es Fi]|(before & c0 & after & k & Es & Fb & Fa & Ow & Hk)].
  - rewrite Ex in Fi. apply Forall_app in Fi. destruct Fi as [Fx Fy]. inversion Fy as [|z l Ic Fy' Ez]; subst z l. unfold idle, on_its_way in Ic. destruct (ca_at c) as [| | | | | |reply status] eqn:Ea; try discriminate.
    + apply (serial_move h st0 s i x c y 0 Hh Hp Ex Lx Fx Fy'); [cbn; rewrite Es, Ea; reflexivity|unfold answers; cbn; rewrite Ea; reflexivity|exact Hal].
    + assert (E : sys_step s i = s).
      { unfold M_Conc.sys_step. rewrite N, Ea. cbn [M_Conc.call_step]. rewrite <- Ea. rewrite set_nth_same by (rewrite N; destruct c; reflexivity). destruct s; reflexivity. }
      rewrite E. exists h, st0. split; [exact Hh|]. split; [exact Hp|]. left. split; [exact Es|]. rewrite Ex. apply Forall_app. split; assumption.
  - assert (Hnot : forallb (fun c => negb (on_its_way c)) (sy_calls s) = false).
    { destruct (forallb _ (sy_calls s)) eqn:F; [|reflexivity]. apply Forall_idle in F. rewrite Es in F. apply Forall_app in F. destruct F as [_ F]. inversion F as [|z l Ic _ Ez]; subst z l. unfold idle in Ic. congruence. }
    rewrite Hnot, orb_false_r in Lk.
    assert (Same : x = before /\ c = c0 /\ y = after).
    { rewrite Es in Ex. clear - Ex Fb Fa Lk Ow. revert x Ex. induction before as [|b before IH]; intros x Ex.
      - destruct x as [|x0 x]; cbn [app] in Ex.
        + injection Ex as -> ->. auto.
        + exfalso. injection Ex as _ ->. apply Forall_app in Fa. destruct Fa as [_ Fa]. inversion Fa as [|z l Ic _ Ez]; subst z l. unfold idle in Ic. congruence.
      - inversion Fb as [|z l Ib Fb' Ez]; subst z l. destruct x as [|x0 x]; cbn [app] in Ex; injection Ex as -> Ex.
        + unfold idle in Ib. congruence.
        + destruct (IH Fb' x Ex) as (-> & -> & ->). auto. }
    destruct Same as (-> & -> & ->). apply (serial_move h st0 s i before c0 after k Hh Hp Es Lx Fb Fa Hk); [|exact Hal].
    unfold on_its_way in Ow. unfold answers. cbn. destruct (ca_at c0); try discriminate; reflexivity.
Qed.
Lemma locked_done_stays s i : all_alive (sy_calls (locked_step s i)) -> all_alive (sy_calls s).
Proof.
  intros H c reply status Hin Hd. apply (H c reply status); [|exact Hd]. unfold M_Conc.locked_step. destruct (nth_error (sy_calls s) i) as [d|]; [|exact Hin]. destruct (on_its_way d || _); [|exact Hin]. exact (done_stays s i c reply status Hin Hd).
Qed.
Lemma serial_run calls schedule : not_begun calls -> all_alive (sy_calls (locked_run {| sy_server := server_init inputs; sy_calls := calls |} schedule)) -> serial (locked_run {| sy_server := server_init inputs; sy_calls := calls |} schedule).
Proof.
  intros Hn. induction schedule as [|i schedule IH] using rev_ind; intros Hal.
  - cbn. exists [], (server_init inputs). split; [constructor|]. cbn [sy_calls sy_server]. split; [|left; split; [reflexivity|]].
    + replace (answers calls) with (@nil server_message); [constructor|]. symmetry. clear Hal. induction calls as [|c calls IH]; [reflexivity|]. unfold answers. cbn [flat_map]. rewrite (Hn c (or_introl eq_refl)). cbn. apply IH. intros d Hd. apply Hn. right. exact Hd.
    + apply Forall_forall. intros c Hc. unfold idle, on_its_way. rewrite (Hn c Hc). reflexivity.
  - unfold M_Conc.locked_run in *. rewrite fold_left_app in *. cbn [fold_left] in *. apply serial_step; [|exact Hal]. apply IH. exact (locked_done_stays _ _ Hal).
Qed.
End Locked.
End Conc.
