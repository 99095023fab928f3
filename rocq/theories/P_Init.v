(** C101: threads that start to use the library at the same time. *)
From Verif Require Import Base M_Init S_Init L_Init.

(** Whatever the threads do, and in whatever order, the set-up of the library runs at most once; and by the time a constructor of Context has
    returned in some thread, it has run, and both callbacks are installed. *)
Theorem C101_set_up_once : forall num_locks early programs schedule,
  let s := irun num_locks (shared_init early programs) schedule in
  (sh_loads s <= 1)%nat /\ ((0 < sh_contexts s)%nat -> sh_loads s = 1%nat /\ sh_ids s = true /\ sh_locks s = true).
Proof.
  intros nl early ps sched. cbv zeta. destruct (once_run nl early ps sched) as [H _]. set (s := irun nl (shared_init early ps) sched) in *. destruct (sh_flag s) as [|u|].
  - destruct H as (A & B & _). rewrite A, B. split; lia.
  - destruct H as (B & He & _). rewrite B. split; [inversion He; lia|lia].
  - destruct H as (A & B & D & _). rewrite A. auto.
Qed.
Print Assumptions C101_set_up_once.

(** If every thread constructs a Context before it uses the library, and the members made before the body of the constructor use no lock: no call
    of the locking callback is undefined or aborts, and two threads are never in critical sections guarded by one lock. *)
Theorem C101_exclusion_partial : forall num_locks programs schedule, Forall (context_first num_locks) programs ->
  let s := irun num_locks (shared_init [] programs) schedule in
  sh_fault s = Ok tt /\ (forall t u n, inside s t n -> inside s u n -> t = u) /\ (forall t n, inside s t n -> sh_locks s = true /\ sh_owner s n = Some t).
Proof.
  intros nl ps sched H. cbv zeta. destruct (tame_run nl ps sched H) as (F & T & _). set (s := irun nl (shared_init [] ps) sched) in *.
  assert (K : forall t n, inside s t n -> sh_locks s = true /\ sh_owner s n = Some t).
  { intros t n (r & Er). pose proof (T t) as Tt. rewrite Er in Tt. inversion Tt as [p G L E0|n' p G L Hn Bn|p G F1|p G F1|p G F1|p G F1|p G F1]; subst; [destruct p as [|[|m] p]; discriminate E0|auto]. }
  split; [exact F|]. split; [|exact K]. intros t u n A B. destruct (K t n A) as [_ A']. destruct (K u n B) as [_ B']. congruence.
Qed.
Print Assumptions C101_exclusion_partial.

(** And they never block each other for good: from every state that such threads can reach, all can finish, each Context having been made. *)
Theorem C101_no_deadlock_partial : forall num_locks programs schedule, Forall (context_first num_locks) programs ->
  exists rest, let s := irun num_locks (shared_init [] programs) (schedule ++ rest) in
  sh_fault s = Ok tt /\ (forall t, finished s t) /\ sh_contexts s = list_sum (map contexts_in programs).
Proof.
  intros nl ps sched H. pose proof (tame_run nl ps sched H) as T0.
  assert (Q : forall s t s', (sh_fault s = Ok tt /\ tame nl s /\ (forall u, (length ps <= u)%nat -> sh_threads s u = []) /\ (sh_contexts s + total pending (length ps) (sh_threads s) = list_sum (map contexts_in ps))%nat) ->
    istep nl s t = Some s' -> sh_fault s' = Ok tt /\ tame nl s' /\ (forall u, (length ps <= u)%nat -> sh_threads s' u = []) /\ (sh_contexts s' + total pending (length ps) (sh_threads s') = list_sum (map contexts_in ps))%nat).
  { intros s t s' (A & B & D & E) St. pose proof (tame_step nl s t s' B St) as B'. destruct (step_total nl s t s' (length ps) St (proj1 B') D) as (_ & X & Y). split; [exact (proj1 B')|]. split; [exact B'|]. split; [exact Y|]. lia. }
  assert (R : let s := irun nl (shared_init [] ps) sched in (forall u, (length ps <= u)%nat -> sh_threads s u = []) /\ (sh_contexts s + total pending (length ps) (sh_threads s) = list_sum (map contexts_in ps))%nat).
  { cbv zeta. pose proof (irun_inv nl _ Q sched (shared_init [] ps)) as W. destruct W as (_ & _ & W1 & W2); [|auto]. split; [reflexivity|]. split; [apply tame_init, H|]. split; [|rewrite total_init; reflexivity].
    intros u Hu. cbn [shared_init sh_threads]. rewrite nth_overflow by exact Hu. reflexivity. }
  destruct R as [R1 R2]. destruct (tame_ends nl (length ps) _ T0 R1) as (rest & E). exists rest. cbv zeta. rewrite irun_app. split; [|split].
  - apply (irun_inv nl (tame nl) (tame_step nl) rest _ T0).
  - intros t. exact (proj1 (E t)).
  - rewrite (proj2 (E 0%nat)). exact R2.
Qed.
Print Assumptions C101_no_deadlock_partial.
(** Two threads; one has the lock when the other asks for it. *)
Definition two_threads : list (list request) := [[NewContext; UseLock 3]; [NewContext; UseLock 3; NewContext]].
Example C101_ex : Forall (context_first 41) two_threads /\
  (let s := irun 41 (shared_init [] two_threads) [0;1;0;0;0;0;0;1;1;0;1]%nat in inside s 0 3 /\ sh_threads s 1 = [IAcquire 3; IRelease 3; IOnce; IMade] /\ sh_contexts s = 2%nat /\ istep 41 s 1 = None) /\
  (let s := irun 41 (shared_init [] two_threads) [0;1;0;0;0;0;0;1;1;0;1;0;1;1;1;1]%nat in finished s 0 /\ finished s 1 /\ sh_contexts s = 3%nat).
Proof. split; [repeat constructor; lia|]. split; [split; [eexists|]|]; vm_compute; repeat split. Qed.

(** Both conditions are needed.  The members of a Context are made before OpenSSLInit is called: if making one of them uses a lock, two threads that
    construct their first Context can be in the same critical section, and releasing the lock is undefined. *)
Theorem C101_early_members_refuted : exists num_locks early programs, Forall (context_first num_locks) programs /\
  (exists schedule n, let s := irun num_locks (shared_init early programs) schedule in inside s 0 n /\ inside s 1 n) /\
  (exists schedule, sh_fault (irun num_locks (shared_init early programs) schedule) = UB).
Proof.
  exists 41, [3], [[NewContext]; [NewContext]]. split; [repeat constructor|]. split.
  - exists [0; 1]%nat, 3. split; eexists; vm_compute; reflexivity.
  - exists [0; 1; 1; 1; 1; 1; 1; 0]%nat. vm_compute. reflexivity.
Qed.
Print Assumptions C101_early_members_refuted.
(** The same for a thread that uses the library without having made a Context. *)
Theorem C101_without_context_refuted : exists num_locks programs, 
  (exists schedule n, let s := irun num_locks (shared_init [] programs) schedule in inside s 0 n /\ inside s 1 n) /\
  (exists schedule, sh_fault (irun num_locks (shared_init [] programs) schedule) = UB).
Proof.
  exists 41, [[NewContext; UseLock 3]; [UseLock 3]]. split.
  - exists [1; 0; 0; 0; 0; 0; 0; 0]%nat, 3. split; eexists; vm_compute; reflexivity.
  - exists [1; 0; 0; 0; 0; 0; 1]%nat. vm_compute. reflexivity.
Qed.
Print Assumptions C101_without_context_refuted.
