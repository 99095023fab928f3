(** C06 - C12: sharding writer, sorted multi reader, merger, ProcessRecordFile. *)
From Verif Require Import Base M_RecordIO L_RecordIO M_Dec M_Shard S_Shard L_Shard L_Merge M_Process L_Process.

(** A key type and records used in the examples: the record itself as std::string key. *)
Definition id_key (r : bytes) : bytes := r.
Lemma bytes_strict_total : strict_total bytes_ltb.
Proof. exact (conj bytes_ltb_irrefl (conj bytes_ltb_trans bytes_ltb_total)). Qed.
Lemma Z_strict_total : strict_total Z.ltb.
Proof.
  unfold strict_total. split; [exact Z.ltb_irrefl|]. split.
  - intros a b c H1 H2. apply Z.ltb_lt in H1, H2. apply Z.ltb_lt. lia.
  - intros a b H1 H2. apply Z.ltb_ge in H1, H2. lia.
Qed.

(** C06.  For every key and threshold, every earlier history of the same writer object, every session and every fault
    pattern: if all calls of the session returned OK, Close named shards ns with contents ls such that ... *)
Theorem C06_no_loss_no_duplication : forall (K : Type) (key : bytes -> K) ltb, strict_total ltb ->
  forall max_bytes hist d0 s1 d1 tr1 prefix ops records fl sd tr,
  between_sessions hist -> no_close_failure hist ->
  sw_run K key ltb max_bytes (sw_init, d0) hist = ((s1, d1), tr1) ->
  session prefix ops records ->
  sw_run K key ltb max_bytes (s1, d1) (ops ++ [OpClose fl]) = (sd, tr) -> all_ok tr ->
  exists ns ls,
    (exists ev tr', tr = tr' ++ [(OpClose fl, RClose (Ok ns), ev)]) /\
    ns = map (fun i => prefix ++ dec (Z.of_nat i)) (seq 0 (length ls)) /\ NoDup ns /\
    Forall2 (fun n l => snd sd n = Some (write_records l) /\ l <> [] /\ key_sorted key ltb l) ns ls /\
    Permutation (concat ls) records /\
    (forall n, ~ In n ns -> snd sd n = d1 n).
Proof. exact (@sharding_ok). Qed.
Print Assumptions C06_no_loss_no_duplication.

(** Without I/O faults every call of a session does return OK. *)
Theorem C06_no_fault_succeeds : forall (K : Type) (key : bytes -> K) ltb max_bytes prefix ops records d sd tr,
  session prefix ops records -> fault_free ops ->
  sw_run K key ltb max_bytes (sw_init, d) (ops ++ [OpClose no_fault]) = (sd, tr) -> all_ok tr.
Proof. exact (@session_nofault). Qed.
Print Assumptions C06_no_fault_succeeds.

Definition ex_w (l : list byte) := OpWrite l no_fault.
Definition ex_ops := [OpPrefix [x61]; ex_w [x03; x01]; ex_w [x02]; ex_w [x01]; OpPrefix [x61]; ex_w [x02]; ex_w []].
Definition no_files : fs := fun _ => None.
Example C06_ex : session [x61] ex_ops [[x03; x01]; [x02]; [x01]; [x02]; []] /\ fault_free ex_ops /\
  let '((_, d), tr) := sw_run bytes id_key bytes_ltb 1 (sw_init, no_files) (ex_ops ++ [OpClose no_fault]) in
  (exists ev, last tr (OpClose no_fault, RUnit, []) = (OpClose no_fault, RClose (Ok [[x61; x30]; [x61; x31]; [x61; x32]]), ev)) /\
  d [x61; x30] = Some (write_records [[x03; x01]]) /\ d [x61; x31] = Some (write_records [[x01]; [x02]]) /\
  d [x61; x32] = Some (write_records [[]; [x02]]).
Proof.
  split; [exists (tl ex_ops); split; [reflexivity|repeat constructor]|]. split; [repeat constructor|].
  vm_compute. split; [eexists; reflexivity|]. repeat split; reflexivity.
Qed.

(** C07.  Several threads, each a list of records it writes; any interleaving of the (atomic) Write calls. *)
Theorem C07_any_interleaving : forall (K : Type) (key : bytes -> K) ltb, strict_total ltb ->
  forall max_bytes prefix (threads : list (list bytes)) order d sd tr,
  interleave threads order ->
  sw_run K key ltb max_bytes (sw_init, d) (OpPrefix prefix :: map (fun r => OpWrite r no_fault) order ++ [OpClose no_fault]) = (sd, tr) ->
  all_ok tr /\
  exists ns ls, (exists ev tr', tr = tr' ++ [(OpClose no_fault, RClose (Ok ns), ev)]) /\ NoDup ns /\
    Forall2 (fun n l => snd sd n = Some (write_records l) /\ key_sorted key ltb l) ns ls /\
    Permutation (concat ls) (concat threads).
Proof.
  intros K key ltb HO mb p threads order d sd tr IL R.
  assert (S : session p (OpPrefix p :: map (fun r => OpWrite r no_fault) order) order).
  { eexists. split; [reflexivity|]. clear. induction order; constructor; assumption. }
  assert (FF : fault_free (OpPrefix p :: map (fun r => OpWrite r no_fault) order)).
  { constructor; [reflexivity|]. clear. induction order; constructor; auto. }
  change (OpPrefix p :: map (fun r => OpWrite r no_fault) order ++ [OpClose no_fault])
    with ((OpPrefix p :: map (fun r => OpWrite r no_fault) order) ++ [OpClose no_fault]) in R.
  pose proof (session_nofault key ltb mb _ _ _ _ _ _ S FF R) as A. split; [exact A|].
  destruct (sharding_ok key ltb HO mb [] d sw_init d [] p _ _ _ _ _ (or_introl eq_refl) (Forall_nil _) eq_refl S R A)
    as (ns & ls & H1 & _ & H2 & H3 & H4 & _).
  exists ns, ls. split; [exact H1|]. split; [exact H2|]. split.
  - clear - H3. induction H3 as [|n l ns ls (A & _ & B) F IH]; constructor; auto.
  - rewrite H4. apply interleave_perm. exact IL.
Qed.
Print Assumptions C07_any_interleaving.
Example C07_ex : interleave [[1;2];[3];[4]] [3;1;4;2] /\ interleave [[1;2];[3];[4]] [1;2;3;4].
Proof.
  split.
  - apply (il_step [[1;2]] 3 [] [[4]]). apply (il_step [] 1 [2] [[];[4]]). apply (il_step [[2];[]] 4 [] []).
    apply (il_step [] 2 [] [[];[]]). constructor. repeat constructor.
  - apply (il_step [] 1 [2] [[3];[4]]). apply (il_step [] 2 [] [[3];[4]]). apply (il_step [[]] 3 [] [[4]]).
    apply (il_step [[];[]] 4 [] []). constructor. repeat constructor.
Qed.

(** C08.  Call i of any history performed a failing open or write: it returns an error, and so do all later Write and
    Close calls up to and including the next Close. *)
Theorem C08_failure_is_sticky : forall (K : Type) (key : bytes -> K) ltb max_bytes ops sd0 sd tr,
  sw_run K key ltb max_bytes sd0 ops = (sd, tr) ->
  forall i op r ev, nth_error tr i = Some (op, r, ev) -> Exists failed_io ev ->
  res_err r /\
  forall j op' r' ev', (i < j)%nat -> nth_error tr j = Some (op', r', ev') ->
    (forall k op'' r'' ev'', (i <= k < j)%nat -> nth_error tr k = Some (op'', r'', ev'') -> ~ is_close op'') ->
    ~ is_prefix_op op' -> res_err r'.
Proof. exact (fun K key ltb mb => sticky key ltb mb). Qed.
Print Assumptions C08_failure_is_sticky.
Example C08_ex :
  let ops := [OpPrefix [x61]; ex_w [x01]; OpWrite [x02] (Fault true None None); ex_w [x03]; OpClose no_fault;
              OpPrefix [x62]; ex_w [x04]; OpClose no_fault] in
  map (fun x => snd (fst x)) (snd (sw_run bytes id_key bytes_ltb 0 (sw_init, no_files) ops)) =
  [RUnit; RWrite (Ok tt); RWrite (Err Internal); RWrite (Err Internal); RClose (Err Internal);
   RUnit; RWrite (Ok tt); RClose (Ok [[x62; x30]])].
Proof. vm_compute. reflexivity. Qed.

(** A call that returned OK performed no failing file operation (open, write or close). *)
Theorem C08_ok_means_no_failure : forall (K : Type) (key : bytes -> K) ltb max_bytes ops sd0 sd tr,
  sw_run K key ltb max_bytes sd0 ops = (sd, tr) ->
  forall i op r ev, nth_error tr i = Some (op, r, ev) -> res_ok r -> ~ Exists failed_any ev.
Proof. exact (fun K key ltb mb => ok_no_failure key ltb mb). Qed.
Print Assumptions C08_ok_means_no_failure.

(** After a Close the writer is indistinguishable from a fresh one, whatever failed before.
    [_partial]: except that no fclose may have failed, see the refutation. *)
Theorem C08_close_resets_partial : forall (K : Type) (key : bytes -> K) ltb max_bytes hist d s1 d1 tr,
  between_sessions hist -> no_close_failure hist ->
  sw_run K key ltb max_bytes (sw_init, d) hist = ((s1, d1), tr) -> s1 = sw_init.
Proof. exact (@between_sessions_fresh). Qed.
Print Assumptions C08_close_resets_partial.

(** After one failed fclose the same writer object never works again: a later session without any fault fails. *)
Theorem C08_close_failure_refuted : exists hist d ops,
  between_sessions hist /\ fault_free ops /\ session [x62] ops [[x01]] /\
  let '(sd1, _) := sw_run bytes id_key bytes_ltb 0 (sw_init, d) hist in
  exists sd tr, sw_run bytes id_key bytes_ltb 0 sd1 (ops ++ [OpClose no_fault]) = (sd, tr) /\ ~ all_ok tr.
Proof.
  exists [OpPrefix [x61]; ex_w [x01]; OpClose (Fault false None (Some []))], no_files, [OpPrefix [x62]; ex_w [x01]].
  split; [right; exists [OpPrefix [x61]; ex_w [x01]]; eexists; reflexivity|].
  split; [repeat constructor|]. split; [eexists; split; [reflexivity|repeat constructor]|].
  cbn. do 2 eexists. split; [reflexivity|]. intros A. inversion A as [|? ? _ A1]; subst. inversion A1 as [|? ? _ A2]; subst.
  inversion A2 as [|? ? X _]; subst. cbn in X. destruct X as (ns & X). discriminate.
Qed.
Print Assumptions C08_close_failure_refuted.

(** A failed fclose is also not sticky: the session's Close may return OK and name the damaged shard. *)
Theorem C08_failed_fclose_then_ok_refuted : exists ops d, 
  map (fun x => snd (fst x)) (snd (sw_run bytes id_key bytes_ltb 0 (sw_init, d) ops)) =
    [RUnit; RWrite (Ok tt); RWrite (Err Internal); RClose (Ok [[x61; x30]])] /\
  snd (fst (sw_run bytes id_key bytes_ltb 0 (sw_init, d) ops)) [x61; x30] = Some [].
Proof.
  exists [OpPrefix [x61]; ex_w [x01]; OpWrite [x02] (Fault false None (Some [])); OpClose no_fault], no_files.
  split; vm_compute; reflexivity.
Qed.
Print Assumptions C08_failed_fclose_then_ok_refuted.

(** Changing the prefix within a session can make two shards share a name, silently overwriting the first one. *)
Definition collide_ops : list sw_op :=
  OpPrefix [x61; x31] :: [ex_w [xaa]; ex_w [xbb]; ex_w [xcc]] ++ [OpPrefix [x61]] ++
  map (fun k => ex_w [zb k]) (map Z.of_nat (seq 1 10)) ++ [OpClose no_fault].
Theorem C06_prefix_change_refuted : exists ns,
  let '((_, d), tr) := sw_run bytes id_key bytes_ltb 0 (sw_init, no_files) collide_ops in
  all_ok tr /\ (exists ev tr', tr = tr' ++ [(OpClose no_fault, RClose (Ok ns), ev)]) /\ ~ NoDup ns /\
  forall n c, In n ns -> d n = Some c -> c <> write_records [[xbb]].
Proof.
  eexists. vm_compute. split; [|split; [|split]].
  - repeat constructor. eexists; reflexivity.
  - eexists. eexists (_ :: _ :: _ :: _ :: _ :: _ :: _ :: _ :: _ :: _ :: _ :: _ :: _ :: _ :: _ :: []). reflexivity.
  - intros N. inversion N as [|? ? _ N1]; subst. inversion N1 as [|? ? N2 _]; subst. apply N2. cbn. tauto.
  - intros n c Hn Hd. cbn in Hn.
    repeat (destruct Hn as [<-|Hn]; [vm_compute in Hd; injection Hd as <-; discriminate|]). contradiction.
Qed.
Print Assumptions C06_prefix_change_refuted.

(** C09.  [rs] are the contents of the files; [ties] resolves key ties arbitrarily. *)
Theorem C09_multi_reader_merges : forall (K : Type) (key : bytes -> K) ltb, strict_total ltb ->
  forall ties (rs : list (list bytes)),
  Forall (Forall (fun r : bytes => Z.of_nat (length r) < 2 ^ 32)) rs -> Forall (key_sorted key ltb) rs ->
  let m := MSR (map write_records rs) [] in
  exists out, ms_read_all K key ltb (ms_fuel m) ties m = Ok out /\
    (forall e, In e out -> (snd e < length rs)%nat) /\
    (forall i, (i < length rs)%nat -> from_file i out = nth i rs []) /\
    key_sorted key ltb (map fst out).
Proof. exact (@multi_read). Qed.
Print Assumptions C09_multi_reader_merges.
(** In particular nothing is lost or duplicated. *)
Theorem C09_permutation : forall out (rs : list (list bytes)), (forall e, In e out -> (snd e < length rs)%nat) ->
  (forall i, (i < length rs)%nat -> from_file i out = nth i rs []) -> Permutation (map fst out) (concat rs).
Proof. exact multi_read_perm. Qed.
Print Assumptions C09_permutation.
Example C09_ex : Forall (key_sorted (@length byte) Nat.ltb) [[[x01];[x02;x00]];[];[[xff];[x03];[x04;x05;x06]]] /\
  ms_read_all nat (@length byte) Nat.ltb 10 (fun _ => 0%nat) (MSR (map write_records [[[x01];[x02;x00]];[];[[xff];[x03];[x04;x05;x06]]]) []) =
    Ok [([xff], 2%nat); ([x03], 2%nat); ([x01], 0%nat); ([x02;x00], 0%nat); ([x04;x05;x06], 2%nat)] /\
  ms_read_all nat (@length byte) Nat.ltb 10 (fun _ => 1%nat) (MSR (map write_records [[[x01];[x02;x00]];[];[[xff];[x03];[x04;x05;x06]]]) []) =
    Ok [([x01], 0%nat); ([xff], 2%nat); ([x03], 2%nat); ([x02;x00], 0%nat); ([x04;x05;x06], 2%nat)].
Proof. split; [repeat constructor|split; vm_compute; reflexivity]. Qed.

(** C10. *)
Theorem C10_merge_sorted_permutation : forall (K : Type) (key : bytes -> K) ltb, strict_total ltb ->
  forall ties d shards (ls : list (list bytes)) output,
  Forall2 (fun n l => d n = Some (write_records l)) shards ls ->
  Forall (Forall (fun r : bytes => Z.of_nat (length r) < 2 ^ 32)) ls -> Forall (key_sorted key ltb) ls -> ~ In output shards ->
  exists d' rs, merge K key ltb ties d shards output = (d', Ok tt) /\
    d' output = Some (write_records rs) /\ key_sorted key ltb rs /\ Permutation rs (concat ls) /\
    (forall n, n <> output -> d' n = d n).
Proof. exact (@merge_ok). Qed.
Print Assumptions C10_merge_sorted_permutation.
(** No shards: an empty output file. *)
Theorem C10_no_shards : forall (K : Type) (key : bytes -> K) ltb ties d output,
  exists d', merge K key ltb ties d [] output = (d', Ok tt) /\ d' output = Some [].
Proof. intros. eexists. split; [reflexivity|]. apply fs_set_eq. Qed.
Print Assumptions C10_no_shards.
Example C10_ex : let d := fs_set (fs_set no_files [x61] (write_records [[x01];[x03]])) [x62] (write_records [[x02]]) in
  let '(d', o) := merge bytes id_key bytes_ltb (fun _ => 0%nat) d [[x61];[x62]] [x63] in
  o = Ok tt /\ d' [x63] = Some (write_records [[x01];[x02];[x03]]).
Proof. vm_compute. auto. Qed.

(** C11. *)
Theorem C11_process_is_sorted_map : forall (K : Type) (key : bytes -> K) ltb, strict_total ltb ->
  forall max_bytes transform chunk threads ties fuel d input output ins outs,
  (1 <= chunk)%nat -> (1 <= threads)%nat -> (length ins < fuel)%nat ->
  d input = Some (write_records ins) ->
  Forall (fun r : bytes => Z.of_nat (length r) < 2 ^ 32) ins -> Forall (fun r : bytes => Z.of_nat (length r) < 2 ^ 32) outs ->
  Forall2 (fun r o => transform r = Ok o) ins outs ->
  (forall i, input <> output ++ dec (Z.of_nat i)) ->
  exists d' rs k, process_record_file K key ltb max_bytes transform chunk threads ties fuel d input output = (d', Ok tt) /\
    d' output = Some (write_records rs) /\ key_sorted key ltb rs /\ Permutation rs outs /\
    (forall i, (i < k)%nat -> d' (output ++ dec (Z.of_nat i)) = None) /\
    (forall n, n <> output -> (forall i, (i < k)%nat -> n <> output ++ dec (Z.of_nat i)) -> d' n = d n).
Proof. exact (@process_ok). Qed.
Print Assumptions C11_process_is_sorted_map.

Theorem C11_transform_error_reported : forall (K : Type) (key : bytes -> K) ltb, strict_total ltb ->
  forall max_bytes transform chunk threads ties fuel d input output ins,
  (1 <= chunk)%nat -> (1 <= threads)%nat -> (length ins < fuel)%nat ->
  d input = Some (write_records ins) -> Forall (fun r : bytes => Z.of_nat (length r) < 2 ^ 32) ins ->
  (forall r, In r ins -> (exists o, transform r = Ok o) \/ (exists c, transform r = Err c)) ->
  (exists r c, In r ins /\ transform r = Err c) ->
  exists d' c r, process_record_file K key ltb max_bytes transform chunk threads ties fuel d input output = (d', Err c) /\
    In r ins /\ transform r = Err c.
Proof. exact (@process_err). Qed.
Print Assumptions C11_transform_error_reported.

Example C11_ex : let d := fs_set no_files [x69] (write_records [[x05];[x03];[x04];[x01];[x02]]) in
  let '(d', o) := process_record_file bytes id_key bytes_ltb 1 (fun r => Ok (x00 :: r)) 2 3 (fun _ => 0%nat) 10 d [x69] [x6f] in
  o = Ok tt /\ d' [x6f] = Some (write_records [[x00;x01];[x00;x02];[x00;x03];[x00;x04];[x00;x05]]) /\
  d' [x6f; x30] = None /\ d' [x6f; x31] = None /\ d' [x69] = d [x69].
Proof. vm_compute. repeat split; reflexivity. Qed.

(** An input file called like the first shard of the output is silently overwritten and deleted. *)
Theorem C11_input_deleted_refuted : exists d input output ins,
  d input = Some (write_records ins) /\ input <> output /\
  let '(d', o) := process_record_file bytes id_key bytes_ltb 200 (fun r => Ok r) 10 2 (fun _ => 0%nat) 10 d input output in
  o = Ok tt /\ d' input = None.
Proof.
  exists (fs_set no_files [x61; x30] (write_records [[x01]; [x02]])), [x61; x30], [x61], [[x01]; [x02]].
  split; [reflexivity|]. split; [discriminate|]. vm_compute. auto.
Qed.
Print Assumptions C11_input_deleted_refuted.

(** C12. *)
Theorem C12_threads_cover_chunk : forall (A : Type) (chunk : list A) threads pts, (1 <= threads)%nat ->
  per_thread_size (length chunk) threads = Ok pts ->
  concat (map (fun j => slice chunk (thread_range pts (length chunk) j)) (seq 0 threads)) = chunk.
Proof. exact (@thread_split). Qed.
Print Assumptions C12_threads_cover_chunk.
Theorem C12_ranges_disjoint_in_bounds : forall pts n i j, (i < j)%nat ->
  (snd (thread_range pts n i) <= fst (thread_range pts n j))%nat /\ (snd (thread_range pts n i) <= n)%nat.
Proof. exact (fun pts n i j H => conj (ranges_disjoint pts n i j H) (range_bound pts n i)). Qed.
Print Assumptions C12_ranges_disjoint_in_bounds.
Theorem C12_ranges_cover : forall n threads pts i, (1 <= threads)%nat -> per_thread_size n threads = Ok pts -> (i < n)%nat ->
  exists j, (j < threads)%nat /\ (fst (thread_range pts n j) <= i < snd (thread_range pts n j))%nat.
Proof. exact ranges_cover. Qed.
Print Assumptions C12_ranges_cover.
Theorem C12_zero_threads_divides_by_zero : forall (K : Type) (key : bytes -> K) ltb max_bytes transform chunk threads ties fuel d input output r rs,
  threads = O -> (1 <= fuel)%nat -> Forall (fun r : bytes => Z.of_nat (length r) < 2 ^ 32) (r :: rs) ->
  d input = Some (write_records (r :: rs)) ->
  snd (process_record_file K key ltb max_bytes transform chunk threads ties fuel d input output) = UB.
Proof. exact (@zero_threads). Qed.
Print Assumptions C12_zero_threads_divides_by_zero.
Theorem C12_zero_chunk_never_ends : forall (K : Type) (key : bytes -> K) ltb, strict_total ltb ->
  forall max_bytes transform chunk threads ties fuel d input output r rs,
  chunk = O -> (1 <= threads)%nat -> Forall (fun r : bytes => Z.of_nat (length r) < 2 ^ 32) (r :: rs) ->
  d input = Some (write_records (r :: rs)) ->
  snd (process_record_file K key ltb max_bytes transform chunk threads ties fuel d input output) = Diverge.
Proof. exact (@zero_chunk). Qed.
Print Assumptions C12_zero_chunk_never_ends.
Example C12_ex : map (thread_range 3 7) (seq 0 3) = [(0,3);(3,6);(6,7)]%nat /\ per_thread_size 7 3 = Ok 3%nat /\
  map (thread_range 1 2) (seq 0 5) = [(0,1);(1,2);(2,2);(3,2);(4,2)]%nat /\ per_thread_size 2 5 = Ok 1%nat.
Proof. vm_compute. auto. Qed.
