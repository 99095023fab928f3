(** C105: ProcessRecordFile on any input file, whoever wrote it and whatever happened to it since. *)
From Verif Require Import Base M_RecordIO L_RecordIO S_RecordIO M_Dec M_Shard S_Shard L_Shard M_Process L_Process P_Shard L_ProcessAny M_ProcessFault P_ProcessFault.
From Verif Require P_RecordIO.

(** How a file that does not end after its last record is reported. *)
Definition damage (e : ending) : outcome unit := match e with Clean => Ok tt | Short_record => Err Internal | Long_header => Err InvalidArgument | Cut_header => UB end.

(** Any file that can be read to its end ([divided ... Clean], S_RecordIO.v), with headers of any form, is mapped as C11 says. *)
Theorem C105_any_intact_file : forall (K : Type) (key : bytes -> K) ltb, strict_total ltb ->
  forall max_bytes transform chunk threads ties fuel (d : fs) input output f ins outs,
  (1 <= chunk)%nat -> (1 <= threads)%nat -> (length ins < fuel)%nat ->
  d input = Some f -> divided f ins Clean -> Forall (fun r : bytes => Z.of_nat (length r) < 2 ^ 32) outs ->
  Forall2 (fun r o => transform r = Ok o) ins outs ->
  (forall i, input <> output ++ dec (Z.of_nat i)) ->
  exists d' rs k, process_record_file K key ltb max_bytes transform chunk threads ties fuel d input output = (d', Ok tt) /\
    d' output = Some (write_records rs) /\ key_sorted key ltb rs /\ Permutation rs outs /\
    (forall i, (i < k)%nat -> d' (output ++ dec (Z.of_nat i)) = None) /\
    (forall n, n <> output -> (forall i, (i < k)%nat -> n <> output ++ dec (Z.of_nat i)) -> d' n = d n).
Proof.
  intros K key ltb HO mb tr ck th ties fuel d input output f ins outs Hc Ht Hf Hd D So M Hn.
  apply (process_ok_any key ltb HO mb tr ck th ties fuel d input output f ins outs Hc Ht Hf Hd); try assumption; [|exact (divided_short f ins Clean D)].
  intros x. apply loop_clean; [exact (divided_read f ins Clean D)|exact (divided_short f ins Clean D)].
Qed.
Print Assumptions C105_any_intact_file.

(** A file that cannot be read to its end is never mapped: the outcome is the one for its damage, or the error of the function for one of the records
    before the damage. The output file and every file not named like a shard are as before. *)
Theorem C105_damaged_input : forall (K : Type) (key : bytes -> K) ltb, strict_total ltb ->
  forall max_bytes transform chunk threads ties fuel (d : fs) input output f ins e,
  (1 <= chunk)%nat -> (1 <= threads)%nat -> (length ins < fuel)%nat ->
  d input = Some f -> divided f ins e -> e <> Clean ->
  (forall r, In r ins -> (exists o, transform r = Ok o) \/ (exists c, transform r = Err c)) ->
  let '(d', o) := process_record_file K key ltb max_bytes transform chunk threads ties fuel d input output in
  (o = damage e \/ exists c r, In r ins /\ transform r = Err c /\ o = Err c) /\ o <> Ok tt /\
  forall n, (forall i, n <> output ++ dec (Z.of_nat i)) -> d' n = d n.
Proof.
  intros K key ltb HO mb tr ck th ties fuel d input output f ins e Hc Ht Hf Hd D He S.
  destruct (process_damaged key ltb HO mb tr ck th ties fuel d input output f ins (ended e) Hc Ht Hf Hd (divided_read f ins e D)) as [A B].
  - destruct e; [contradiction|discriminate..].
  - apply Forall_forall. exact S.
  - destruct (process_record_file K key ltb mb tr ck th ties fuel d input output) as [d' o]. cbn [fst snd] in *. split; [exact A|]. split; [|exact B].
    destruct A as [->|(c & r & _ & _ & ->)]; [|discriminate]. destruct e; [contradiction|discriminate..].
Qed.
Print Assumptions C105_damaged_input.

(** So the outcome is OK exactly if the file can be read to its end and the function succeeds on all of its records. *)
Theorem C105_ok_iff : forall (K : Type) (key : bytes -> K) ltb, strict_total ltb ->
  forall max_bytes transform chunk threads ties fuel (d : fs) input output f ins e,
  (1 <= chunk)%nat -> (1 <= threads)%nat -> (length ins < fuel)%nat ->
  d input = Some f -> divided f ins e ->
  (forall r, In r ins -> (exists o, transform r = Ok o /\ Z.of_nat (length o) < 2 ^ 32) \/ (exists c, transform r = Err c)) ->
  (forall i, input <> output ++ dec (Z.of_nat i)) ->
  (snd (process_record_file K key ltb max_bytes transform chunk threads ties fuel d input output) = Ok tt <->
   e = Clean /\ forall r, In r ins -> exists o, transform r = Ok o).
Proof.
  intros K key ltb HO mb tr ck th ties fuel d input output f ins e Hc Ht Hf Hd D S Hn.
  assert (S' : forall r, In r ins -> (exists o, tr r = Ok o) \/ (exists c, tr r = Err c)). { intros r Hr. destruct (S r Hr) as [(o & X & _)|X]; eauto. }
  split.
  - intros E. assert (e = Clean).
    { destruct e; [reflexivity|..]; exfalso; pose proof (C105_damaged_input K key ltb HO mb tr ck th ties fuel d input output f ins _ Hc Ht Hf Hd D ltac:(discriminate) S') as X;
        destruct (process_record_file K key ltb mb tr ck th ties fuel d input output) as [d' o]; cbn [snd] in E; destruct X as (_ & X & _); contradiction. }
    subst e. split; [reflexivity|].
    assert (P : (forall r, In r ins -> exists o, tr r = Ok o) \/ exists r c, In r ins /\ tr r = Err c).
    { clear - S'. induction ins as [|r l IH]; [left; intros r []|]. destruct IH as [IH|(x & c & Hx & X)]; [intros x Hx; apply S'; right; exact Hx| |right; exists x, c; split; [right; exact Hx|exact X]].
      destruct (S' r (or_introl eq_refl)) as [Ho|(c & X)]; [left; intros x [<-|Hx]; auto|right; exists r, c; split; [left; reflexivity|exact X]]. }
    destruct P as [P|P]; [exact P|]. exfalso.
    destruct (process_err_any key ltb HO mb tr ck th ties fuel d input output f ins Hc Ht Hf Hd (divided_read f ins Clean D) (divided_short f ins Clean D)) as (d3 & c & r & E3 & _); [apply Forall_forall; exact S'|exact P|].
    rewrite E3 in E. discriminate.
  - intros (-> & A).
    assert (M : exists outs, Forall2 (fun r o => tr r = Ok o) ins outs /\ Forall (fun r : bytes => Z.of_nat (length r) < 2 ^ 32) outs).
    { clear - S A. induction ins as [|r l IH]; [exists []; split; constructor|]. destruct IH as (outs & M & B); [intros x Hx; apply S; right; exact Hx|intros x Hx; apply A; right; exact Hx|].
      destruct (S r (or_introl eq_refl)) as [(o & Eo & Bo)|(c & Ec)]; [exists (o :: outs); split; constructor; assumption|]. destruct (A r (or_introl eq_refl)) as (o & Eo). congruence. }
    destruct M as (outs & M & B). destruct (C105_any_intact_file K key ltb HO mb tr ck th ties fuel d input output f ins outs Hc Ht Hf Hd D B M Hn) as (d' & rs & k & E & _). rewrite E. reflexivity.
Qed.
Print Assumptions C105_ok_iff.

(** On any device, with any faults: if the call returns OK then the input file could be read to its end, the function succeeded on all of its records,
    and the output holds exactly the results, in key order. *)
Theorem C105_ok_on_any_device : forall (K : Type) (key : bytes -> K) ltb, strict_total ltb ->
  forall max_bytes dv transform chunk threads ties fuel (d : fs) input output f ins e d',
  (1 <= chunk)%nat -> (1 <= threads)%nat -> (length ins < fuel)%nat ->
  d input = Some f -> divided f ins e ->
  (forall r, In r ins -> (exists o, transform r = Ok o /\ Z.of_nat (length o) < 2 ^ 32) \/ (exists c, transform r = Err c)) ->
  (forall i, input <> output ++ dec (Z.of_nat i)) ->
  process_f K key ltb max_bytes dv transform chunk threads ties fuel d input output = (d', Ok tt) ->
  e = Clean /\ exists outs rs k, Forall2 (fun r o => transform r = Ok o) ins outs /\
    d' output = Some (write_records rs) /\ key_sorted key ltb rs /\ Permutation rs outs /\
    (forall i, (i < k)%nat -> d' (output ++ dec (Z.of_nat i)) = None) /\
    (forall n, n <> output -> (forall i, (i < k)%nat -> n <> output ++ dec (Z.of_nat i)) -> d' n = d n).
Proof.
  intros K key ltb HO mb dv tr ck th ties fuel d input output f ins e d' Hc Ht Hf Hd D S Hn E.
  pose proof (ends_as_without_faults K key ltb mb dv tr ck th ties fuel d input output) as G. rewrite E in G.
  destruct (process_record_file K key ltb mb tr ck th ties fuel d input output) as [d2 o] eqn:E2. destruct G as [<- ->].
  destruct (proj1 (C105_ok_iff K key ltb HO mb tr ck th ties fuel d input output f ins e Hc Ht Hf Hd D S Hn)) as [-> A]; [rewrite E2; reflexivity|]. split; [reflexivity|].
  assert (M : exists outs, Forall2 (fun r o => tr r = Ok o) ins outs /\ Forall (fun r : bytes => Z.of_nat (length r) < 2 ^ 32) outs).
  { clear - S A. induction ins as [|r l IH]; [exists []; split; constructor|]. destruct IH as (outs & M & B); [intros x Hx; apply S; right; exact Hx|intros x Hx; apply A; right; exact Hx|].
    destruct (S r (or_introl eq_refl)) as [(o & Eo & Bo)|(c & Ec)]; [exists (o :: outs); split; constructor; assumption|]. destruct (A r (or_introl eq_refl)) as (o & Eo). congruence. }
  destruct M as (outs & M & B). destruct (C105_any_intact_file K key ltb HO mb tr ck th ties fuel d input output f ins outs Hc Ht Hf Hd D B M Hn) as (d3 & rs & k & E3 & G).
  rewrite E2 in E3. injection E3 as <-. exists outs, rs, k. split; [exact M|exact G].
Qed.
Print Assumptions C105_ok_on_any_device.

(** A run that fails on its input does not remove the shards it has written. *)
Theorem C105_cleanup_refuted : exists (d : fs) input output f, d input = Some f /\ d (output ++ [x30]) = None /\
  let '(d', o) := process_record_file bytes id_key bytes_ltb 1 (fun r => Ok r) 3 1 (fun _ => 0%nat) 10 d input output in
  o = Err Internal /\ d' (output ++ [x30]) <> None /\ d' output = None.
Proof.
  exists (fs_set no_files [x69] (write_records [[x05];[x03];[x04]] ++ [x02; x07])), [x69], [x6f], (write_records [[x05];[x03];[x04]] ++ [x02; x07]).
  split; [reflexivity|]. split; [reflexivity|]. vm_compute. split; [reflexivity|]. split; [discriminate|reflexivity].
Qed.
Print Assumptions C105_cleanup_refuted.

(** The header 81 00 is a longer form of 01: no writer makes it, yet the file is mapped like one with 01. The same file without its last byte is refused. *)
Example C105_ex : let f := [x81; x00; x05; x01; x03] in
  divided f [[x05]; [x03]] Clean /\ f <> write_records [[x05]; [x03]] /\ divided [x81; x00; x05; x01] [[x05]] Short_record /\
  (let '(d', o) := process_record_file bytes id_key bytes_ltb 1 (fun r => Ok (x00 :: r)) 2 3 (fun _ => 0%nat) 10 (fs_set no_files [x69] f) [x69] [x6f] in
   o = Ok tt /\ d' [x6f] = Some (write_records [[x00;x03];[x00;x05]])) /\
  snd (process_record_file bytes id_key bytes_ltb 1 (fun r => Ok (x00 :: r)) 2 3 (fun _ => 0%nat) 10 (fs_set no_files [x69] [x81; x00; x05; x01]) [x69] [x6f]) = Err Internal.
Proof.
  split; [apply P_RecordIO.C73_any_file; vm_compute; reflexivity|]. split; [vm_compute; discriminate|]. split; [apply P_RecordIO.C73_any_file; vm_compute; reflexivity|].
  split; vm_compute; repeat split; reflexivity.
Qed.
