(** Theorems about requests that arrive at the same time (C78). *)
From Coq Require Import Permutation.
From Verif Require Import Base M_BigNum M_Num M_EC L_EC L_Toy M_Group S_Group P_Group M_Cipher S_Cipher P_Cipher M_Paillier S_Paillier P_Paillier M_Protocol S_Protocol L_Protocol P_Protocol M_Conc S_Conc L_Conc.

(** The machine that takes a call step by step is the sequential handler when nothing else happens. *)
Theorem C78_alone : forall C X sqrt_p fuel flag srt st m r st' reply status,
  server_handle C X sqrt_p fuel flag srt r (fun _ => Ok tt) st m = (st', reply, status) ->
  exists n, sys_run C X sqrt_p fuel flag srt {| sy_server := st; sy_calls := [arrive m r] |} (repeat 0%nat n) =
    {| sy_server := st'; sy_calls := [{| ca_msg := m; ca_rand := r; ca_at := Done reply status |}] |}.
Proof.
  intros C X sq fuel flag srt st m r st' reply status E. destruct (alone C X sq fuel flag srt st m r st' reply status E) as (n & Hn). exists n.
  exact (sys_run_repeat C X sq fuel flag srt n {| sy_server := st; sy_calls := [arrive m r] |} 0 (arrive m r) st' (Done reply status) eq_refl Hn).
Qed.
Print Assumptions C78_alone.

(** With a lock around the handler, every schedule of every list of requests gives the replies of some one-after-another history, so there is
    at most one encrypted set and at most one result. The code has no such lock. *)
Theorem C78_lock_partial : forall C X sqrt_p fuel flag srt inputs calls schedule,
  ec_laws C -> sqrt_ok (ec_p C) sqrt_p -> bit_length (ec_p C) <= 129024 -> not_begun calls ->
  let s := locked_run C X sqrt_p fuel flag srt {| sy_server := server_init inputs; sy_calls := calls |} schedule in
  all_alive (sy_calls s) ->
  (exists h st, server_history C X sqrt_p fuel flag srt inputs h st /\ Permutation (answers (sy_calls s)) (replies h)) /\
  (length (starts (answers (sy_calls s))) <= 1)%nat /\ (length (results (answers (sy_calls s))) <= 1)%nat.
Proof.
  intros C X sq fuel flag srt inputs calls schedule L Hs Hb Hn s Hal. destruct (serial_run C X sq fuel flag srt inputs calls schedule Hn Hal) as (h & st & Hh & Hp & _). fold s in Hp. split; [eauto|].
  assert (P1 : Permutation (starts (answers (sy_calls s))) (starts (replies h)) /\ Permutation (results (answers (sy_calls s))) (results (replies h))).
  { clear - Hp. revert Hp. generalize (answers (sy_calls s)) (replies h). intros a b P. unfold starts, results. induction P as [|x l l' P IH|x y l|l l' l'' P1 IH1 P2 IH2]; cbn [filter]; [split; constructor| | |].
    - destruct IH as [I1 I2]. split; [destruct x as [[| |]|]|destruct x as [[| |]|]]; try assumption; constructor; assumption.
    - split; destruct x as [[| |]|], y as [[| |]|]; try apply Permutation_refl; constructor.
    - destruct IH1, IH2. split; etransitivity; eassumption. }
  rewrite (Permutation_length (proj1 P1)), (Permutation_length (proj2 P1)).
  destruct (C40_reply_order C X sq fuel flag srt inputs h st L Hs Hb Hh) as [(_ & ->)|[(_ & es & ->)|(_ & es & n & b & ->)]]; cbn; lia.
Qed.
Print Assumptions C78_lock_partial.

Definition demo_step := sys_run toy spread_ext toy_sqrt 20 false isort.
Definition demo_calls : list call := [arrive (Some CStart) (demo_rand 29); arrive (Some (CRoundOne [zb 4; zb 57] [] [])) (demo_rand 31); arrive (Some (CRoundOne [zb 4; zb 57] [] [])) (demo_rand 37)].
Example C78_lock_ex : let s := locked_run toy spread_ext toy_sqrt 20 false isort {| sy_server := server_init [demo_id 65]; sy_calls := demo_calls |} [0;1;0;2;0;0;0;1;2;1;2;1;2;1;2;1;2]%nat in
  not_begun demo_calls /\ (length (starts (answers (sy_calls s))), length (results (answers (sy_calls s)))) = (1, 1)%nat /\
  match map ca_at (sy_calls s) with [Done (Some _) (Ok tt); Done (Some _) (Ok tt); Done None (Err InvalidArgument)] => True | _ => False end.
Proof. cbv zeta. split; [intros c [<-|[<-|[<-|[]]]]; reflexivity|]. split; vm_compute; [reflexivity|exact I]. Qed.

(** Without the lock: requests that find the server's key in place do not disturb each other. Under every schedule each of them ends as it would end
    on its own, or is refused because another one finished first. *)
Theorem C78_key_in_place : forall C X sqrt_p fuel flag srt st c calls schedule i d reply status,
  sv_cipher st = Some c -> sv_finished st = false -> not_begun calls ->
  nth_error (sy_calls (sys_run C X sqrt_p fuel flag srt {| sy_server := st; sy_calls := calls |} schedule)) i = Some d -> ca_at d = Done reply status ->
  (reply = None /\ status = Err InvalidArgument) \/
  exists st', server_handle C X sqrt_p fuel flag srt (ca_rand d) (fun _ => Ok tt) st (ca_msg d) = (st', reply, status).
Proof.
  intros C X sq fuel flag srt st c calls schedule i d reply status Hc Hf Hn Hd Ha.
  assert (K : keyed C X sq fuel flag srt st c {| sy_server := st; sy_calls := calls |}) by (split; [exact Hc|]; intros j e He; left; apply Hn; exact (nth_error_In _ _ He)).
  destruct (proj2 (keyed_run C X sq fuel flag srt st c Hc schedule _ K) i d Hd) as [W|[W|(k & W)]]; rewrite Ha in W; [discriminate|injection W as -> ->; auto|right].
  destruct (server_handle C X sq fuel flag srt (ca_rand d) accept st (ca_msg d)) as [[st' r1] o1] eqn:E. destruct (later_alone C X sq fuel flag srt st c Hc Hf _ _ _ _ _ E) as (n & Hl).
  pose proof (Hl (k + n)%nat ltac:(lia)) as H1.
  assert (H2 : later C X sq fuel flag srt st (k + n) (ca_msg d) (ca_rand d) (first (ca_msg d)) = Done reply status).
  { clear - W. induction n as [|n IH]; [rewrite Nat.add_0_r; symmetry; exact W|]. rewrite Nat.add_succ_r, later_S, IH. reflexivity. }
  rewrite H2 in H1. injection H1 as -> ->. exists st'. exact E.
Qed.
Print Assumptions C78_key_in_place.

(** Whatever happens, a request that begins after a result was handed over is refused. *)
Theorem C78_late_refused : forall C X sqrt_p fuel flag srt s schedule i c, sv_finished (sy_server s) = true -> nth_error (sy_calls s) i = Some c -> ca_at c = Waiting ->
  exists d, nth_error (sy_calls (sys_run C X sqrt_p fuel flag srt s schedule)) i = Some d /\ (ca_at d = Waiting \/ ca_at d = Done None (Err InvalidArgument)).
Proof.
  intros C X sq fuel flag srt s schedule i c Hf Hc Ha.
  assert (G : forall s, sv_finished (sy_server s) = true -> (exists d, nth_error (sy_calls s) i = Some d /\ (ca_at d = Waiting \/ ca_at d = Done None (Err InvalidArgument))) ->
    exists d, nth_error (sy_calls (sys_run C X sq fuel flag srt s schedule)) i = Some d /\ (ca_at d = Waiting \/ ca_at d = Done None (Err InvalidArgument))).
  2:{ apply G; [exact Hf|]. exists c. auto. }
  clear s c Hf Hc Ha. induction schedule as [|j schedule IH]; intros s Hf (d & Hd & Hat); [exists d; auto|]. unfold sys_run. cbn [fold_left]. apply IH.
  - unfold sys_step. destruct (nth_error (sy_calls s) j) as [e|]; [|exact Hf]. destruct (call_step C X sq fuel flag srt (sy_server s) (ca_msg e) (ca_rand e) (ca_at e)) as [st' a] eqn:E. cbn [sy_server].
    destruct (ca_at e) as [| | |[|x t] dn|pk [|x t] dn|sz sb|rp so]; cbn [call_step] in E; try (injection E as <- <-; cbn; auto; fail).
    + destruct (ca_msg e) as [[| |]|]; injection E as <- <-; exact Hf.
    + destruct (cipher_new C (sr_key (ca_rand e)) 0); injection E as <- <-; cbn; exact Hf.
  - unfold sys_step. destruct (nth_error (sy_calls s) j) as [e|] eqn:N; [|exists d; auto]. destruct (call_step C X sq fuel flag srt (sy_server s) (ca_msg e) (ca_rand e) (ca_at e)) as [st' a] eqn:E. cbn [sy_calls].
    destruct (Nat.eq_dec j i) as [->|Nj]; [|exists d; rewrite nth_set_other by exact Nj; auto].
    rewrite Hd in N. injection N as <-. eexists. split; [exact (nth_set_same _ _ _ _ Hd)|]. cbn [ca_at]. right. destruct Hat as [W|W]; rewrite W in E; cbn [call_step] in E; [rewrite Hf in E|]; injection E as <- <-; reflexivity.
Qed.
Print Assumptions C78_late_refused.

(** But nothing bounds the number of results: if a server that holds its key gets any number of requests at the same time, there is a schedule that
    answers every one of them as if it were the only one. *)
Theorem C78_all_answered : forall C X sqrt_p fuel flag srt st c calls, sv_cipher st = Some c -> sv_finished st = false -> not_begun calls ->
  exists schedule, forall i d, nth_error calls i = Some d -> exists st' reply status,
    server_handle C X sqrt_p fuel flag srt (ca_rand d) (fun _ => Ok tt) st (ca_msg d) = (st', reply, status) /\
    nth_error (sy_calls (sys_run C X sqrt_p fuel flag srt {| sy_server := st; sy_calls := calls |} schedule)) i = Some {| ca_msg := ca_msg d; ca_rand := ca_rand d; ca_at := Done reply status |}.
Proof.
  intros C X sq fuel flag srt st c calls Hc Hf Hn. pose proof (enter_all C X sq fuel flag srt st Hf calls [] Hn ltac:(intros ? [])) as E1. cbn [app length] in E1.
  set (s1 := {| sy_server := st; sy_calls := map _ calls |}) in E1.
  assert (K : entered C X sq fuel flag srt st c s1).
  { split; [exact Hc|]. intros i d Hd. cbn [sy_calls s1] in Hd. rewrite nth_error_map in Hd. destruct (nth_error calls i) as [e|]; [|discriminate]. injection Hd as <-. exists 0%nat. reflexivity. }
  destruct (finish_all C X sq fuel flag srt st c Hc Hf s1 K (length calls)) as (sch & _ & Hs). exists (seq 0 (length calls) ++ sch). intros i d Hd.
  assert (E : sys_run C X sq fuel flag srt {| sy_server := st; sy_calls := calls |} (seq 0 (length calls) ++ sch) = sys_run C X sq fuel flag srt s1 sch) by (rewrite <- E1; unfold sys_run; apply fold_left_app).
  rewrite E. pose proof (Hs i {| ca_msg := ca_msg d; ca_rand := ca_rand d; ca_at := first (ca_msg d) |}) as H1. cbn [sy_calls s1] in H1. rewrite nth_error_map, Hd in H1. specialize (H1 eq_refl). rewrite H1. cbn [ca_msg ca_rand ca_at].
  assert (Hi : (i < length calls)%nat) by (apply nth_error_Some; congruence). destruct (Nat.ltb_spec i (length calls)); [|lia]. unfold end_of. cbn [ca_rand ca_msg].
  destruct (server_handle C X sq fuel flag srt (ca_rand d) accept st (ca_msg d)) as [[st' reply] status] eqn:Ea. exists st', reply, status. split; [exact Ea|reflexivity].
Qed.
Print Assumptions C78_all_answered.

(** So the server may give more than one result. *)
Theorem C78_one_result_refuted : ~ (forall C X sqrt_p fuel flag srt inputs calls schedule, ec_laws C -> sqrt_ok (ec_p C) sqrt_p -> bit_length (ec_p C) <= 129024 -> not_begun calls ->
  let s := sys_run C X sqrt_p fuel flag srt {| sy_server := server_init inputs; sy_calls := calls |} schedule in all_alive (sy_calls s) -> (length (results (answers (sy_calls s))) <= 1)%nat).
Proof.
  intros F. pose proof (F toy spread_ext toy_sqrt 20%nat false isort [demo_id 65] demo_calls [0;0;0;0;0;1;2;1;2;1;2;1;2]%nat toy_laws toy_sqrt_ok ltac:(vm_compute; discriminate)) as G.
  cbv zeta in G. assert (N : not_begun demo_calls) by (intros c [<-|[<-|[<-|[]]]]; reflexivity). specialize (G N).
  match type of G with all_alive ?l -> _ => assert (A : map (fun c => match ca_at c with Done _ (Ok tt) => true | _ => false end) l = [true; true; true]) by (vm_compute; reflexivity) end.
  match type of G with _ -> (length ?r <= 1)%nat => assert (R : length r = 2%nat) by (vm_compute; reflexivity) end.
  rewrite R in G. enough (2 <= 1)%nat by lia. apply G. clear - A. match type of A with map _ ?l = _ => generalize dependent l end. intros l A c reply status Hin Hd.
  assert (T : (fun c => match ca_at c with Done _ (Ok tt) => true | _ => false end) c = true).
  { apply (in_map (fun c => match ca_at c with Done _ (Ok tt) => true | _ => false end)) in Hin. rewrite A in Hin. destruct Hin as [E|[E|[E|[]]]]; symmetry; exact E. }
  cbn beta in T. rewrite Hd in T. destruct status as [[]| | | |]; try discriminate. left. reflexivity.
Qed.
Print Assumptions C78_one_result_refuted.

(** And the result may be wrong: an honest client with the identifier A worth 5 joins a server that holds A, while someone else sends a start. The
    client takes the first reply and goes on when all starts are answered. *)
Definition join_during (schedule : list nat) : outcome (bool * Z * Z) :=
  let* cl0 := demo_client in
  let s1 := demo_step {| sy_server := server_init [demo_id 65]; sy_calls := [arrive (Some CStart) (demo_rand 29); arrive (Some CStart) (demo_rand 31)] |} schedule in
  match sy_calls s1 with
  | [{| ca_at := Done (Some m1) (Ok _) |}; {| ca_at := Done _ _ |}] =>
      match client_handle toy spread_ext toy_sqrt 20 ex_safe false isort (fun _ => 1) (fun _ => 2) (fun _ => Ok tt) cl0 m1 with
      | (cl1, Some msg, Ok _) =>
          let s2 := demo_step {| sy_server := sy_server s1; sy_calls := [arrive msg (demo_rand 41)] |} (repeat 0%nat 10) in
          match sy_calls s2 with
          | [{| ca_at := Done (Some m2) (Ok _) |}] =>
              let '(cl2, _, status) := client_handle toy spread_ext toy_sqrt 20 ex_safe false isort (fun _ => 1) (fun _ => 2) (fun _ => Ok tt) cl1 m2 in
              let* _ := status in Ok (cl_finished cl2, cl_size cl2, cl_sum cl2)
          | _ => Err Internal
          end
      | _ => Err Internal
      end
  | _ => Err Internal
  end.
Theorem C78_right_result_refuted : ~ (forall schedule size sum, join_during schedule = Ok (true, size, sum) -> size = 1 /\ sum = 5).
Proof.
  intros F. assert (E : join_during [1;1;0;0;0;0;0;1;1;1]%nat = Ok (true, 0, 0)) by (vm_compute; reflexivity). apply F in E. destruct E as [E _]. discriminate E.
Qed.
Print Assumptions C78_right_result_refuted.
Example C78_right_ex : join_during [0;0;0;0;0;1;1;1]%nat = Ok (true, 1, 5) /\ join_during [0;0;1;1;0;0;1;0;1;1]%nat = Ok (true, 0, 0).
Proof. split; vm_compute; reflexivity. Qed.
