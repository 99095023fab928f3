(** C84: ProcessRecordFile on a device that may fail. *)
From Verif Require Import Base M_RecordIO M_Dec M_Shard S_Shard M_Process L_Process M_File M_ProcessFault S_ProcessFault L_ProcessFault P_Shard.

Lemma ends_as_without_faults (K : Type) (key : bytes -> K) ltb mb dv transform chunk threads ties fuel d input output :
  let '(df, xf) := process_f K key ltb mb dv transform chunk threads ties fuel d input output in
  let '(d', o) := process_record_file K key ltb mb transform chunk threads ties fuel d input output in
  match xf with
  | Ok _ => df = d' /\ o = Ok tt
  | Err c => o = Err c \/ other_failure dv
  | Crash => o = Crash \/ first_peek_failure dv
  | UB => o = UB \/ close_failure dv
  | Diverge => o = Diverge
  end.
Proof.
  apply (process_sim (other_failure dv) (first_peek_failure dv) (close_failure dv)); unfold other_failure, first_peek_failure, close_failure; intros;
    repeat (first [assumption | solve [left; eauto 3] | solve [do 2 eexists; eassumption] | solve [eexists; eassumption] | right]).
Qed.

(** If the call returns OK, whatever the device did, then the transform succeeded on every record of the input and the output holds exactly the results, in
    key order; the shards are gone and every other file is as before. *)
Theorem C84_ok_is_complete : forall (K : Type) (key : bytes -> K) ltb, strict_total ltb ->
  forall max_bytes dv transform chunk threads ties fuel d input output ins d',
  (1 <= chunk)%nat -> (1 <= threads)%nat -> (length ins < fuel)%nat ->
  d input = Some (write_records ins) -> Forall (fun r : bytes => Z.of_nat (length r) < 2 ^ 32) ins ->
  (forall r, In r ins -> (exists o, transform r = Ok o /\ Z.of_nat (length o) < 2 ^ 32) \/ (exists c, transform r = Err c)) ->
  (forall i, input <> output ++ dec (Z.of_nat i)) ->
  process_f K key ltb max_bytes dv transform chunk threads ties fuel d input output = (d', Ok tt) ->
  exists outs rs k, Forall2 (fun r o => transform r = Ok o) ins outs /\
    d' output = Some (write_records rs) /\ key_sorted key ltb rs /\ Permutation rs outs /\
    (forall i, (i < k)%nat -> d' (output ++ dec (Z.of_nat i)) = None) /\
    (forall n, n <> output -> (forall i, (i < k)%nat -> n <> output ++ dec (Z.of_nat i)) -> d' n = d n).
Proof.
  intros K key ltb HO mb dv transform chunk threads ties fuel d input output ins d' Hc Ht Hf Hd Hs Hoe Hn E.
  pose proof (ends_as_without_faults K key ltb mb dv transform chunk threads ties fuel d input output) as G. rewrite E in G.
  destruct (process_record_file K key ltb mb transform chunk threads ties fuel d input output) as [d2 o] eqn:E2. destruct G as [<- ->].
  assert (D : (exists outs, Forall2 (fun r o => transform r = Ok o) ins outs /\ Forall (fun r : bytes => Z.of_nat (length r) < 2 ^ 32) outs) \/ exists r c, In r ins /\ transform r = Err c).
  { clear - Hoe. induction ins as [|r ins IH]; [left; exists []; split; constructor|].
    destruct (Hoe r (or_introl eq_refl)) as [(o & Eo & Lo)|(c & Ec)]; [|right; exists r, c; split; [left; reflexivity|exact Ec]].
    destruct IH as [(outs & A & B)|(r' & c & A & B)]; [intros r' Hr; apply Hoe; right; exact Hr| |right; exists r', c; split; [right; exact A|exact B]].
    left. exists (o :: outs). split; constructor; assumption. }
  destruct D as [(outs & A & B)|D].
  - destruct (C11_process_is_sorted_map K key ltb HO mb transform chunk threads ties fuel d input output ins outs Hc Ht Hf Hd Hs B A Hn) as (d3 & rs & k & E3 & G).
    rewrite E2 in E3. injection E3 as <-. exists outs, rs, k. split; [exact A|exact G].
  - destruct (C11_transform_error_reported K key ltb HO mb transform chunk threads ties fuel d input output ins Hc Ht Hf Hd Hs) as (d3 & c & r & E3 & _); [|exact D|congruence].
    intros r Hr. destruct (Hoe r Hr) as [(o & X & _)|X]; eauto.
Qed.
Print Assumptions C84_ok_is_complete.

(** If no close fails, and the first access to a shard read back does not fail, every failure ends in an error status. *)
Theorem C84_failures_reported_partial : forall (K : Type) (key : bytes -> K) ltb, strict_total ltb ->
  forall max_bytes dv transform chunk threads ties fuel d input output ins,
  (1 <= chunk)%nat -> (1 <= threads)%nat -> (length ins < fuel)%nat ->
  d input = Some (write_records ins) -> Forall (fun r : bytes => Z.of_nat (length r) < 2 ^ 32) ins ->
  (forall r, In r ins -> (exists o, transform r = Ok o /\ Z.of_nat (length o) < 2 ^ 32) \/ (exists c, transform r = Err c)) ->
  (forall i, input <> output ++ dec (Z.of_nat i)) ->
  ~ close_failure dv -> ~ first_peek_failure dv ->
  let o := snd (process_f K key ltb max_bytes dv transform chunk threads ties fuel d input output) in
  (o = Ok tt \/ exists c, o = Err c) /\ (~ other_failure dv -> (forall r, In r ins -> exists x, transform r = Ok x) -> o = Ok tt).
Proof.
  intros K key ltb HO mb dv transform chunk threads ties fuel d input output ins Hc Ht Hf Hd Hs Hoe Hn Hcl Hfp.
  pose proof (ends_as_without_faults K key ltb mb dv transform chunk threads ties fuel d input output) as G.
  assert (D : (exists outs, Forall2 (fun r o => transform r = Ok o) ins outs /\ Forall (fun r : bytes => Z.of_nat (length r) < 2 ^ 32) outs) \/ exists r c, In r ins /\ transform r = Err c).
  { clear - Hoe. induction ins as [|r ins IH]; [left; exists []; split; constructor|].
    destruct (Hoe r (or_introl eq_refl)) as [(o & Eo & Lo)|(c & Ec)]; [|right; exists r, c; split; [left; reflexivity|exact Ec]].
    destruct IH as [(outs & A & B)|(r' & c & A & B)]; [intros r' Hr; apply Hoe; right; exact Hr| |right; exists r', c; split; [right; exact A|exact B]].
    left. exists (o :: outs). split; constructor; assumption. }
  assert (Ho : snd (process_record_file K key ltb mb transform chunk threads ties fuel d input output) = Ok tt \/
    exists c r, snd (process_record_file K key ltb mb transform chunk threads ties fuel d input output) = Err c /\ In r ins /\ transform r = Err c).
  { destruct D as [(outs & A & B)|D].
    - destruct (C11_process_is_sorted_map K key ltb HO mb transform chunk threads ties fuel d input output ins outs Hc Ht Hf Hd Hs B A Hn) as (d3 & rs & k & E3 & _).
      left. rewrite E3. reflexivity.
    - destruct (C11_transform_error_reported K key ltb HO mb transform chunk threads ties fuel d input output ins Hc Ht Hf Hd Hs) as (d3 & c & r & E3 & G3); [|exact D|].
      + intros r Hr. destruct (Hoe r Hr) as [(o & X & _)|X]; eauto.
      + right. exists c, r. rewrite E3. split; [reflexivity|exact G3]. }
  destruct (process_f K key ltb mb dv transform chunk threads ties fuel d input output) as [df xf].
  destruct (process_record_file K key ltb mb transform chunk threads ties fuel d input output) as [d2 o2]. cbn [snd] in *.
  destruct xf as [[]|c| | |]; cbv zeta.
  - split; [left; reflexivity|reflexivity].
  - split; [right; eauto|]. intros Hq Hall. destruct G as [->|G]; [|destruct (Hq G)]. destruct Ho as [Ho|(c' & r & Ho & Hr & Er)]; [discriminate|].
    destruct (Hall r Hr) as (x & Ex). congruence.
  - destruct G as [->|G]; [|destruct (Hfp G)]. destruct Ho as [Ho|(c' & r & Ho & _)]; discriminate.
  - destruct G as [->|G]; [|destruct (Hcl G)]. destruct Ho as [Ho|(c' & r & Ho & _)]; discriminate.
  - rewrite G in Ho. destruct Ho as [Ho|(c' & r & Ho & _)]; discriminate.
Qed.
Print Assumptions C84_failures_reported_partial.

(** Whatever happens, no file is touched but the output and the files named like its shards. *)
Theorem C84_other_files_kept : forall (K : Type) (key : bytes -> K) ltb max_bytes dv transform chunk threads ties fuel d input output n,
  n <> output -> (forall i, n <> output ++ dec (Z.of_nat i)) ->
  fst (process_f K key ltb max_bytes dv transform chunk threads ties fuel d input output) n = d n.
Proof.
  intros K key ltb mb dv transform chunk threads ties fuel d input output n H1 H2. apply process_frame. intros [X|(i & X)]; [exact (H1 X)|exact (H2 i X)].
Qed.
Print Assumptions C84_other_files_kept.

(** The guards are needed.  Three records, one shard. *)
Definition in_fs : fs := fs_set no_files [x69] (write_records [[x03]; [x01]; [x02]]).
Definition run_on dv := process_f bytes id_key bytes_ltb 200 dv (fun r => Ok (x00 :: r)) 2 2 (fun _ => 0%nat) 10 in_fs [x69] [x6f].
Definition with_shard_read f := Device false (fun _ => false) false (fun _ => no_fault) (fun _ => false) f (fun _ => false) false None false (fun _ => false) None [] (fun _ => false).
(** The device fails on the first access to the shard: HasMore reports it, Merge calls value() on the error, and the process aborts. *)
Theorem C84_failed_peek_aborts_refuted : exists dv, ~ close_failure dv /\ snd (run_on dv) = Crash.
Proof.
  exists (with_shard_read (fun _ n => Nat.eqb n 0)). split; [|vm_compute; reflexivity].
  intros [H|[(n & c & H)|[(i & H)|[(c & H)|(c & H)]]]]; discriminate.
Qed.
Print Assumptions C84_failed_peek_aborts_refuted.
(** A failing close of the input, of a shard, of the output or of a shard read back: the status is an error, but the destructor closes the stream again. *)
Theorem C84_failed_close_undefined_refuted : forall c,
  snd (run_on (Device false (fun _ => false) true (fun _ => no_fault) (fun _ => false) (fun _ _ => false) (fun _ => false) false None false (fun _ => false) None [] (fun _ => false))) = UB /\
  snd (run_on (Device false (fun _ => false) false (fun _ => Fault false None (Some c)) (fun _ => false) (fun _ _ => false) (fun _ => false) false None false (fun _ => false) None [] (fun _ => false))) = UB /\
  snd (run_on (Device false (fun _ => false) false (fun _ => no_fault) (fun _ => false) (fun _ _ => false) (fun _ => false) false None false (fun _ => false) (Some c) [] (fun _ => false))) = UB /\
  snd (run_on (Device false (fun _ => false) false (fun _ => no_fault) (fun _ => false) (fun _ _ => false) (fun _ => true) false None false (fun _ => false) None [] (fun _ => false))) = UB.
Proof. intros c. repeat split; vm_compute; reflexivity. Qed.
Print Assumptions C84_failed_close_undefined_refuted.
(** After a reported failure the shards stay behind: here the output could not be opened. *)
Theorem C84_shards_left_refuted : exists dv, ~ close_failure dv /\ ~ first_peek_failure dv /\
  snd (run_on dv) = Err NotFound /\ fst (run_on dv) [x6f; x30] = Some (write_records [[x00; x01]; [x00; x02]; [x00; x03]]).
Proof.
  exists (Device false (fun _ => false) false (fun _ => no_fault) (fun _ => false) (fun _ _ => false) (fun _ => false) false None true (fun _ => false) None [] (fun _ => false)).
  split; [intros [H|[(n & c & H)|[(i & H)|[(c & H)|(c & H)]]]]; discriminate|]. split; [intros (i & H); discriminate|]. split; vm_compute; reflexivity.
Qed.
Print Assumptions C84_shards_left_refuted.

(** A good device: three records are processed; a device that fails on a later access reports an error and leaves the input. *)
Example C84_ex : snd (run_on good_device) = Ok tt /\ fst (run_on good_device) [x6f] = Some (write_records [[x00; x01]; [x00; x02]; [x00; x03]]) /\
  ~ close_failure good_device /\ ~ first_peek_failure good_device /\ ~ other_failure good_device /\
  snd (run_on (with_shard_read (fun _ n => Nat.eqb n 5))) = Err Internal /\ fst (run_on (with_shard_read (fun _ n => Nat.eqb n 5))) [x69] = in_fs [x69].
Proof.
  split; [vm_compute; reflexivity|]. split; [vm_compute; reflexivity|].
  split; [intros [H|[(n & c & H)|[(i & H)|[(c & H)|(c & H)]]]]; discriminate|]. split; [intros (i & H); discriminate|].
  split; [intros [H|[(n & H)|[(n & H)|[(n & x & H)|[(i & H)|[(i & n & H)|[H|[H|[(i & H)|(i & H)]]]]]]]]]; discriminate|].
  split; vm_compute; reflexivity.
Qed.
