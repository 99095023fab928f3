(** C104: a shard merger used for several merges. *)
From Verif Require Import Base M_RecordIO S_RecordIO M_Dec M_Shard S_Shard L_Shard M_File P_Shard M_Merger L_Merger.
From Verif Require P_RecordIO.

(** For every history of merges that all returned OK, on any files and devices: if the next one returns OK, its output is what one merge is to
    produce, a sorted file of the records of the shards, and no other file has changed. *)
Theorem C104_ok_is_complete : forall (K : Type) (key : bytes -> K) ltb, strict_total ltb -> forall before g rs0,
  mg_run K key ltb mg_init before = (g, rs0) -> Forall (fun x => fst x = Ok tt) rs0 ->
  forall ties dv d shards (ls : list (list bytes)) output g' d',
  Forall2 (fun n l => d n = Some (write_records l)) shards ls ->
  Forall (Forall (fun r : bytes => Z.of_nat (length r) < 2 ^ 32)) ls -> Forall (key_sorted key ltb) ls -> ~ In output shards ->
  mg_merge K key ltb ties dv g d shards output = (g', d', Ok tt) ->
  exists rs, d' output = Some (write_records rs) /\ key_sorted key ltb rs /\ Permutation rs (concat ls) /\ forall n, n <> output -> d' n = d n.
Proof.
  intros K key ltb HO before g rs0 R A ties dv d shards ls out g' d' F B S N E. rewrite (run_resets key ltb _ _ _ R A) in E.
  exact (merge_complete key ltb HO ties dv d shards ls out g' d' F B S N E).
Qed.
Print Assumptions C104_ok_is_complete.
(** Nor does one return OK unless every shard was there and could be read to its end ([divided ... Clean], S_RecordIO.v), sorted or not; then all
    of the records are in the output. *)
Theorem C104_ok_means_intact : forall (K : Type) (key : bytes -> K) ltb, strict_total ltb -> forall before g rs0,
  mg_run K key ltb mg_init before = (g, rs0) -> Forall (fun x => fst x = Ok tt) rs0 ->
  forall ties dv d shards output g' d', mg_merge K key ltb ties dv g d shards output = (g', d', Ok tt) ->
  exists ls rs, Forall2 (fun n l => exists f, d n = Some f /\ divided f l Clean) shards ls /\ d' output = Some (write_records rs) /\ Permutation rs (concat ls) /\
    forall n, n <> output -> d' n = d n.
Proof.
  intros K key ltb HO before g rs0 R A ties dv d shards out g' d' E. rewrite (run_resets key ltb _ _ _ R A) in E.
  destruct (merge_reads_all key ltb HO ties dv d shards out g' d' E) as (_ & ls & rs & F & X). exists ls, rs. split; [|exact X].
  clear - F. induction F as [|n l ns ls (f & H1 & H2) F IH]; constructor; [|exact IH]. exists f. split; [exact H1|]. apply P_RecordIO.C73_any_file. exact H2.
Qed.
Print Assumptions C104_ok_means_intact.
(** And it does return OK if nothing fails on the device. *)
Theorem C104_succeeds : forall (K : Type) (key : bytes -> K) ltb, strict_total ltb -> forall before g rs0,
  mg_run K key ltb mg_init before = (g, rs0) -> Forall (fun x => fst x = Ok tt) rs0 ->
  forall ties dv d shards (ls : list (list bytes)) output,
  Forall2 (fun n l => d n = Some (write_records l)) shards ls ->
  Forall (Forall (fun r : bytes => Z.of_nat (length r) < 2 ^ 32)) ls -> Forall (key_sorted key ltb) ls -> ~ In output shards ->
  (forall n, md_miss dv n = false) -> md_out_open dv = false -> (forall i, md_write dv i = false) ->
  exists g' d', mg_merge K key ltb ties dv g d shards output = (g', d', Ok tt).
Proof.
  intros K key ltb HO before g rs0 R A ties dv d shards ls out F B S N M1 M2 M3. rewrite (run_resets key ltb _ _ _ R A).
  destruct (merge_succeeds key ltb HO ties dv d shards ls out F B S N M1 M2 M3) as (d' & E). eauto.
Qed.
Print Assumptions C104_succeeds.

(** After a merge of some shards that returned an error, whatever the reason, the object is of no more use: every later call, with whatever files,
    returns an error; one with shards is refused before it touches a file, and one without may only empty its output. *)
Theorem C104_failure_is_final : forall (K : Type) (key : bytes -> K) ltb before g rs0,
  mg_run K key ltb mg_init before = (g, rs0) -> Forall (fun x => fst x = Ok tt) rs0 ->
  forall ties dv d shards output g1 d1 c after, shards <> [] -> mg_merge K key ltb ties dv g d shards output = (g1, d1, Err c) ->
  exists g2 rs, mg_run K key ltb g1 after = (g2, rs) /\
    Forall2 (fun call x => (exists code, fst x = Err code) /\ (mc_shards call <> [] -> x = (Err Internal, mc_fs call)) /\ forall n, n <> mc_out call -> snd x n = mc_fs call n) after rs.
Proof.
  intros K key ltb before g rs0 R A ties dv d shards out g1 d1 c after Hs E. rewrite (run_resets key ltb _ _ _ R A) in E.
  exact (stuck_run key ltb after g1 (failed_nonempty key ltb ties dv d shards out g1 d1 c Hs E)).
Qed.
Print Assumptions C104_failure_is_final.

(** So a failed merge cannot be tried again: here a shard is missing at first; when it is there, a new merger merges, the old one does not. *)
Theorem C104_retry_refuted : let ready := fs_set (fs_set no_files [x61] (write_records [[x02]])) [x62] (write_records [[x01]]) in
  let early := fs_set no_files [x61] (write_records [[x02]]) in
  let call d := MCall (fun _ => 0%nat) md_good d [[x61]; [x62]] [x63] in
  map fst (snd (mg_run bytes id_key bytes_ltb mg_init [call ready])) = [Ok tt] /\
  map fst (snd (mg_run bytes id_key bytes_ltb mg_init [call early; call ready; call ready])) = [Err NotFound; Err Internal; Err Internal].
Proof. vm_compute. split; reflexivity. Qed.
Print Assumptions C104_retry_refuted.

(** Merges with one object, the third with a full disk; then the object is stuck.  And a damaged shard. *)
Example C104_ex : let d := fs_set (fs_set no_files [x61] (write_records [[x01]; [x03]])) [x62] (write_records [[x02]]) in
  let full := MDevice (fun _ => false) false (fun i => Nat.eqb i 1) in
  let rs := snd (mg_run bytes id_key bytes_ltb mg_init
    [MCall (fun _ => 0%nat) md_good d [[x61]; [x62]] [x63]; MCall (fun _ => 0%nat) md_good d [] [x64]; MCall (fun _ => 0%nat) full d [[x61]; [x62]] [x63];
     MCall (fun _ => 0%nat) md_good d [[x61]] [x65]; MCall (fun _ => 0%nat) md_good d [] [x65]]) in
  map fst rs = [Ok tt; Ok tt; Err Internal; Err Internal; Err Internal] /\
  map (fun x => snd x [x63]) rs = [Some (write_records [[x01]; [x02]; [x03]]); None; Some (write_records [[x01]]); None; None] /\
  Forall (key_sorted id_key bytes_ltb) [[[x01]; [x03]]; [[x02]]] /\
  map fst (snd (mg_run bytes id_key bytes_ltb mg_init [MCall (fun _ => 0%nat) md_good (fs_set d [x62] [x05; x00]) [[x61]; [x62]] [x63]])) = [Err Internal].
Proof. vm_compute. split; [reflexivity|]. split; [reflexivity|]. split; [repeat constructor|reflexivity]. Qed.
