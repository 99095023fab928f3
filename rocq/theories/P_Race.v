(** Theorems about memory that requests share (C98). *)
From Verif Require Import Base M_BigNum M_Num M_EC L_EC L_Toy M_Group P_Group M_Cipher L_Cipher P_Cipher M_Paillier M_Protocol S_Protocol L_Protocol P_Protocol M_Conc S_Conc L_Conc P_Conc M_Race S_Race L_Race.

(** As long as no freed key is used, reading the pointer and using the key may count as one step: every schedule leads where some schedule of [M_Conc] leads,
    and every schedule of [M_Conc] can happen. *)
Theorem C98_atomic : forall C X sqrt_p fuel flag srt me calls schedule, sound me -> none_begun calls ->
  let s := {| ms_memory := me; ms_calls := calls |} in
  (no_use_after_free (ms_calls (mem_run C X sqrt_p fuel flag srt s schedule)) -> exists schedule', sys_run C X sqrt_p fuel flag srt (plain_system s) schedule' = plain_system (mem_run C X sqrt_p fuel flag srt s schedule)) /\
  exists schedule', no_use_after_free (ms_calls (mem_run C X sqrt_p fuel flag srt s schedule')) /\ plain_system (mem_run C X sqrt_p fuel flag srt s schedule') = sys_run C X sqrt_p fuel flag srt (plain_system s) schedule.
Proof.
  intros C X sq fuel flag srt me calls schedule S N s. assert (St : settled s) by (split; [exact S|]; intros c Hc; exists Waiting; exact (N c Hc)). split.
  - apply plain_run, settled_consistent, St.
  - destruct (fine_run C X sq fuel flag srt schedule s St) as (sch & S' & E). exists sch. split; [apply settled_nofree, S'|exact E].
Qed.
Print Assumptions C98_atomic.

(** With at most one request to start, or with the key already made, no schedule of any requests uses a freed key. *)
Theorem C98_one_start_safe : forall C X sqrt_p fuel flag srt me calls schedule, sound me -> none_begun calls -> me_ptr me <> None \/ (start_requests calls <= 1)%nat ->
  no_use_after_free (ms_calls (mem_run C X sqrt_p fuel flag srt {| ms_memory := me; ms_calls := calls |} schedule)).
Proof. intros C X sq fuel flag srt me calls schedule S N O. apply steady_nofree, steady_run, steady_start; assumption. Qed.
Print Assumptions C98_one_start_safe.

(** With a lock around the handler, no schedule of any requests uses a freed key, and no two requests ever race. The code has no such lock. *)
Theorem C98_lock_partial : forall C X sqrt_p fuel flag srt me calls schedule, sound me -> none_begun calls ->
  let s := mem_locked_run C X sqrt_p fuel flag srt {| ms_memory := me; ms_calls := calls |} schedule in
  no_use_after_free (ms_calls s) /\ forall i j, ~ calls_race_locked s i j.
Proof.
  intros C X sq fuel flag srt me calls schedule S N s. assert (O : orderly s) by (apply orderly_run, orderly_start; assumption). split; [|intros i j; apply orderly_norace, O].
  intros c Hc E. destruct O as (_ & _ & O). specialize (O c Hc). rewrite E in O. exact O.
Qed.
Print Assumptions C98_lock_partial.

(** Without the lock: whenever two requests to start reach a server that has an input and no key yet, there is a schedule under which the first uses a key that the second has freed. *)
Theorem C98_freed_key_refuted : forall C X sqrt_p fuel flag srt me calls i j r r', ec_laws C -> me_ptr me = None -> me_finished me = false -> me_inputs me <> [] ->
  i <> j -> nth_error calls i = Some (marrive (Some CStart) r) -> nth_error calls j = Some (marrive (Some CStart) r') ->
  exists schedule c, nth_error (ms_calls (mem_run C X sqrt_p fuel flag srt {| ms_memory := me; ms_calls := calls |} schedule)) i = Some c /\ mc_at c = UsedFreed.
Proof.
  intros C X sq fuel flag srt me calls i j r r' L Hp Hf Hi N Ei Ej. set (s := {| ms_memory := me; ms_calls := calls |}).
  assert (New : forall r, exists c, cipher_new C (sr_key r) 0 = Ok c).
  { intros r0. unfold cipher_new. cbn [validate_hash_type Z.leb andb negb]. destruct (cipher_make_ok C L (generate_private_key C (sr_key r0)) 0) as (c & E & _). exists c. exact E. }
  destruct (New r) as (k & Ek), (New r') as (k' & Ek'). destruct (me_inputs me) as [|x xs] eqn:Ein; [congruence|].
  assert (S0 : at_state s me i (marrive (Some CStart) r) j (marrive (Some CStart) r')) by (split; [reflexivity|split; assumption]). unfold marrive in S0.
  assert (V : view me = {| sv_inputs := x :: xs; sv_cipher := None; sv_finished := false |}) by (unfold view; rewrite Hp, Hf, Ein; reflexivity).
  assert (Me : {| me_inputs := me_inputs me; me_ptr := me_ptr me; me_heap := me_heap me; me_finished := false |} = me) by (clear -Hf; destruct me as [i0 p0 h0 f0]; cbn in Hf |- *; subst f0; reflexivity).
  assert (A1 : forall r, mem_call_step C X sq fuel flag srt me (Some CStart) r (At Waiting) = (me, At Begun)) by (intros r0; cbn [mem_call_step uses_key]; rewrite V; cbn [call_step sv_finished]; rewrite Me; reflexivity).
  assert (A2 : forall r, mem_call_step C X sq fuel flag srt me (Some CStart) r (At Begun) = (me, At KeyAbsent)) by (intros r0; cbn [mem_call_step uses_key]; rewrite V; cbn [call_step sv_cipher sv_finished]; rewrite Me; reflexivity).
  pose proof (go_left C X sq fuel flag srt _ _ _ _ _ _ _ _ _ _ N S0 (A1 r)) as S1.
  pose proof (go_right C X sq fuel flag srt _ _ _ _ _ _ _ _ _ _ N S1 (A1 r')) as S2.
  pose proof (go_left C X sq fuel flag srt _ _ _ _ _ _ _ _ _ _ N S2 (A2 r)) as S3.
  pose proof (go_right C X sq fuel flag srt _ _ _ _ _ _ _ _ _ _ N S3 (A2 r')) as S4.
  set (me1 := replace_key me k). destruct (replaced me k) as (R1 & R2 & R3 & _). fold me1 in R1, R2, R3. set (a := length (me_heap me)) in *.
  assert (A3 : mem_call_step C X sq fuel flag srt me (Some CStart) r (At KeyAbsent) = (me1, At (Encrypting (x :: xs) []))) by (cbn [mem_call_step]; rewrite Ek, Ein; reflexivity).
  pose proof (go_left C X sq fuel flag srt _ _ _ _ _ _ _ _ _ _ N S4 A3) as S5.
  assert (A4 : mem_call_step C X sq fuel flag srt me1 (Some CStart) r (At (Encrypting (x :: xs) [])) = (me1, Using a (Encrypting (x :: xs) []))) by (cbn [mem_call_step uses_key]; rewrite R1; reflexivity).
  pose proof (go_left C X sq fuel flag srt _ _ _ _ _ _ _ _ _ _ N S5 A4) as S6.
  set (me2 := replace_key me1 k'). destruct (replaced me1 k') as (_ & _ & _ & Q4 & _). fold me2 in Q4.
  assert (A5 : mem_call_step C X sq fuel flag srt me1 (Some CStart) r' (At KeyAbsent) = (me2, At (Encrypting (me_inputs me1) []))) by (cbn [mem_call_step]; rewrite Ek'; reflexivity).
  pose proof (go_right C X sq fuel flag srt _ _ _ _ _ _ _ _ _ _ N S6 A5) as S7.
  assert (A6 : mem_call_step C X sq fuel flag srt me2 (Some CStart) r (Using a (Encrypting (x :: xs) [])) = (me2, UsedFreed)) by (cbn [mem_call_step]; rewrite Q4 by (first [lia|exact R1]); reflexivity).
  pose proof (go_left C X sq fuel flag srt _ _ _ _ _ _ _ _ _ _ N S7 A6) as S8.
  exists [i; j; i; j; i; i; j; i]. destruct S8 as (_ & S8 & _). eexists. split; [exact S8|reflexivity].
Qed.
Print Assumptions C98_freed_key_refuted.

(** Whenever two requests of the second round, whatever they contain, reach a server that has its key, there is a schedule under which they race for the server's Context;
    if both are well formed and have an element, also one under which both use the one key at the same time. *)
Theorem C98_round_ones_race_refuted : forall C X sqrt_p fuel flag srt me calls a i j key es rs r key' es' rs' r', me_ptr me = Some a -> key_at (me_heap me) a <> None -> me_finished me = false ->
  i <> j -> nth_error calls i = Some (marrive (Some (CRoundOne key es rs)) r) -> nth_error calls j = Some (marrive (Some (CRoundOne key' es' rs')) r') ->
  let s := {| ms_memory := me; ms_calls := calls |} in
  calls_race (mem_run C X sqrt_p fuel flag srt s [i; j]) i j /\
  ((exists pk, public_create flag (of_bytes key) 2 (sr_gen r) = Ok pk) -> (exists pk, public_create flag (of_bytes key') 2 (sr_gen r') = Ok pk) -> es <> [] -> es' <> [] ->
   exists schedule c d p q, let t := mem_run C X sqrt_p fuel flag srt s schedule in
     nth_error (ms_calls t) i = Some c /\ nth_error (ms_calls t) j = Some d /\ mc_at c = Using a p /\ mc_at d = Using a q /\ calls_race t i j).
Proof.
  intros C X sq fuel flag srt me calls a i j key es rs r key' es' rs' r' Hp Hk Hf N Ei Ej s. destruct (key_at (me_heap me) a) as [k|] eqn:Ek; [|congruence].
  assert (S0 : at_state s me i (marrive (Some (CRoundOne key es rs)) r) j (marrive (Some (CRoundOne key' es' rs')) r')) by (split; [reflexivity|split; assumption]). unfold marrive in S0.
  assert (V : view me = {| sv_inputs := me_inputs me; sv_cipher := Some k; sv_finished := false |}) by (unfold view; rewrite Hp, Ek, Hf; reflexivity).
  assert (Me : {| me_inputs := me_inputs me; me_ptr := me_ptr me; me_heap := me_heap me; me_finished := false |} = me) by (clear -Hf; destruct me as [i0 p0 h0 f0]; cbn in Hf |- *; subst f0; reflexivity).
  assert (A1 : forall key es rs r, mem_call_step C X sq fuel flag srt me (Some (CRoundOne key es rs)) r (At Waiting) = (me, At Begun)) by (intros; cbn [mem_call_step uses_key]; rewrite V; cbn [call_step sv_finished]; rewrite Me; reflexivity).
  pose proof (go_left C X sq fuel flag srt _ _ _ _ _ _ _ _ _ _ N S0 (A1 key es rs r)) as S1.
  pose proof (go_right C X sq fuel flag srt _ _ _ _ _ _ _ _ _ _ N S1 (A1 key' es' rs' r')) as S2. split.
  - split; [exact N|]. destruct S2 as (M2 & I2 & J2). change (mem_run C X sq fuel flag srt s [i; j]) with (mem_step C X sq fuel flag srt (mem_step C X sq fuel flag srt s i) j). eexists _, _. split; [exact I2|]. split; [exact J2|]. unfold next_touches. rewrite M2. cbn [mc_msg mc_at touches]. rewrite Hp.
    exists SharedContext, true, true. cbn [In]. auto.
  - intros (pk & Epk) (pk' & Epk') He He'. destruct es as [|e es]; [congruence|]. destruct es' as [|e' es']; [congruence|].
    assert (A2 : forall key e es rs r pk, public_create flag (of_bytes key) 2 (sr_gen r) = Ok pk -> mem_call_step C X sq fuel flag srt me (Some (CRoundOne key (e :: es) rs)) r (At Begun) = (me, At (Reencrypting pk (e :: es) []))).
    { intros key0 e0 es0 rs0 r0 pk0 E0. cbn [mem_call_step uses_key]. rewrite V. cbn [call_step sv_cipher sv_finished]. rewrite E0, Me. reflexivity. }
    assert (A3 : forall m r pk e es, mem_call_step C X sq fuel flag srt me m r (At (Reencrypting pk (e :: es) [])) = (me, Using a (Reencrypting pk (e :: es) []))) by (intros; cbn [mem_call_step uses_key]; rewrite Hp; reflexivity).
    pose proof (go_left C X sq fuel flag srt _ _ _ _ _ _ _ _ _ _ N S2 (A2 _ _ _ _ _ _ Epk)) as S3.
    pose proof (go_right C X sq fuel flag srt _ _ _ _ _ _ _ _ _ _ N S3 (A2 _ _ _ _ _ _ Epk')) as S4.
    pose proof (go_left C X sq fuel flag srt _ _ _ _ _ _ _ _ _ _ N S4 (A3 _ _ _ _ _)) as S5.
    pose proof (go_right C X sq fuel flag srt _ _ _ _ _ _ _ _ _ _ N S5 (A3 _ _ _ _ _)) as S6. destruct S6 as (M6 & I6 & J6).
    exists [i; j; i; j; i; j]. eexists _, _, _, _. cbv zeta. split; [exact I6|]. split; [exact J6|]. split; [reflexivity|]. split; [reflexivity|]. split; [exact N|]. eexists _, _. split; [exact I6|]. split; [exact J6|].
    exists (Key a), true, true. unfold next_touches. cbn [mc_msg mc_at touches In]. auto.
Qed.
Print Assumptions C98_round_ones_race_refuted.

(** Even with one client and one request at a time: in every run of the server program that gives a result, the step that sets protocol_finished_ races with the loop of the main thread. *)
Theorem C98_main_loop_race_refuted : forall C X sqrt_p fuel flag srt me calls schedule c, sound me -> none_begun calls -> me_finished me = false ->
  let run := mem_run C X sqrt_p fuel flag srt {| ms_memory := me; ms_calls := calls |} in
  In c (ms_calls (run schedule)) -> gave_result (mc_at c) -> exists before i after, schedule = before ++ i :: after /\ main_races (run before) i.
Proof.
  intros C X sq fuel flag srt me calls schedule c S N F run Hc G. apply (result_races C X sq fuel flag srt schedule); [| |cbn [ms_calls]|eauto].
  - apply settled_consistent. split; [exact S|]. intros d Hd. exists Waiting. exact (N d Hd).
  - exact F.
  - intros d Hd (? & ? & Q). rewrite (N d Hd) in Q. discriminate.
Qed.
Print Assumptions C98_main_loop_race_refuted.

(** Cases that meet the hypotheses: a start and two requests of the second round, and two starts. *)
Definition race_calls : list mcall := [marrive (Some CStart) (demo_rand 29); marrive (Some (CRoundOne [zb 4; zb 57] [] [])) (demo_rand 31); marrive (Some (CRoundOne [zb 4; zb 57] [] [])) (demo_rand 37)].
Definition race_run := mem_run toy spread_ext toy_sqrt 20 false isort.
Example C98_safe_ex : sound (memory_init [demo_id 65]) /\ none_begun race_calls /\ start_requests race_calls = 1%nat /\
  let s := race_run {| ms_memory := memory_init [demo_id 65]; ms_calls := race_calls |} [0;0;0;0;0;0;1;2;1;2;1;1;2;2]%nat in
  match map mc_at (ms_calls s) with [At (Done (Some _) (Ok tt)); At (Done (Some (Some (SRoundTwo _ _))) (Ok tt)); At (Done (Some (Some (SRoundTwo _ _))) (Ok tt))] => True | _ => False end.
Proof. split; [discriminate|]. split; [intros c [<-|[<-|[<-|[]]]]; reflexivity|]. split; [reflexivity|]. vm_compute. exact I. Qed.
Example C98_freed_ex : let s := race_run {| ms_memory := memory_init [demo_id 65]; ms_calls := [marrive (Some CStart) (demo_rand 29); marrive (Some CStart) (demo_rand 31)] |} [0;1;0;1;0;0;1;0]%nat in
  match map mc_at (ms_calls s) with [UsedFreed; At (Encrypting [_] [])] => True | _ => False end.
Proof. vm_compute. exact I. Qed.
