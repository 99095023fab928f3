(** C102: how much a sharding writer collects before it writes a shard. *)
From Verif Require Import Base M_RecordIO M_Dec M_Shard S_Shard L_Shard P_Shard S_ShardSize L_ShardSize.

(** In a session whose calls all return OK, the shards are the groups of the records that S_ShardSize.cut describes, each sorted: a shard takes
    records, in the order written, until it holds more than max_bytes bytes. *)
Theorem C102_shards_partial : forall (K : Type) (key : bytes -> K) ltb, strict_total ltb ->
  forall max_bytes hist d0 s1 d1 tr1 prefix ops records fl sd tr,
  0 <= max_bytes < 2 ^ 31 -> Forall (fun r : bytes => max_bytes + Z.of_nat (length r) < 2 ^ 31) records ->
  between_sessions hist -> no_close_failure hist ->
  sw_run K key ltb max_bytes (sw_init, d0) hist = ((s1, d1), tr1) ->
  session prefix ops records ->
  sw_run K key ltb max_bytes (s1, d1) (ops ++ [OpClose fl]) = (sd, tr) -> all_ok tr ->
  exists ns gs, (exists ev tr', tr = tr' ++ [(OpClose fl, RClose (Ok ns), ev)]) /\ cut max_bytes records gs /\
    Forall2 (fun n g => exists l, snd sd n = Some (write_records l) /\ key_sorted key ltb l /\ Permutation l g) ns gs.
Proof.
  intros K key ltb HO mb hist d0 s1 d1 tr1 p ops rs fl sd tr M Hr Hb Hn R1 S R A. rewrite (between_sessions_fresh key ltb mb _ _ _ _ _ Hb Hn R1) in R. exact (session_sizes key ltb HO mb p d1 ops rs fl sd tr M Hr S R A).
Qed.
Print Assumptions C102_shards_partial.

(** There is only one such grouping. *)
Theorem C102_cut_unique : forall limit records gs gs', cut limit records gs -> cut limit records gs' -> gs = gs'.
Proof. intros limit rs gs gs' H H'. exact (cut_unique limit rs gs H gs' H'). Qed.
Print Assumptions C102_cut_unique.

(** What the writer keeps in memory at any moment of such a session: without the record written last, it is at most max_bytes bytes. *)
Theorem C102_memory_partial : forall (K : Type) (key : bytes -> K) ltb, strict_total ltb ->
  forall max_bytes hist d0 s1 d1 tr1 prefix ops records sd tr,
  0 <= max_bytes < 2 ^ 31 -> Forall (fun r : bytes => max_bytes + Z.of_nat (length r) < 2 ^ 31) records ->
  between_sessions hist -> no_close_failure hist ->
  sw_run K key ltb max_bytes (sw_init, d0) hist = ((s1, d1), tr1) ->
  session prefix ops records -> sw_run K key ltb max_bytes (s1, d1) ops = (sd, tr) -> all_ok tr ->
  volume (removelast (sw_cache (fst sd))) <= max_bytes.
Proof.
  intros K key ltb HO mb hist d0 s1 d1 tr1 p ops rs sd tr M Hr Hb Hn R1 S R A. rewrite (between_sessions_fresh key ltb mb _ _ _ _ _ Hb Hn R1) in R. exact (session_memory key ltb HO mb p d1 ops rs sd tr M Hr S R A).
Qed.
Print Assumptions C102_memory_partial.

(** util/recordio.h:227 calls max_bytes "the maximum size of each shard to write".  A shard can hold more, although every record fits. *)
Theorem C102_limit_refuted : exists max_bytes ops records,
  session [x61] ops records /\ fault_free ops /\ Forall (fun r : bytes => Z.of_nat (length r) <= max_bytes) records /\
  exists l, snd (fst (sw_run bytes id_key bytes_ltb max_bytes (sw_init, no_files) (ops ++ [OpClose no_fault]))) [x61; x30] = Some (write_records l) /\ max_bytes < volume l.
Proof.
  exists 1, [OpPrefix [x61]; ex_w [x01]; ex_w [x02]; ex_w [x03]], [[x01]; [x02]; [x03]].
  split; [exists [ex_w [x01]; ex_w [x02]; ex_w [x03]]; split; [reflexivity|repeat constructor]|]. split; [repeat constructor|]. split; [repeat constructor; cbn; lia|].
  exists [[x01]; [x02]]. split; [vm_compute; reflexivity|reflexivity].
Qed.
Print Assumptions C102_limit_refuted.

(** With the largest max_bytes an int32_t can hold, the 32-bit count of the bytes never gets above it: whatever is written, all of it stays in
    memory and no file is touched before Close. *)
Theorem C102_no_limit_refuted : forall (K : Type) (key : bytes -> K) ltb prefix ops records d sd tr,
  session prefix ops records -> sw_run K key ltb (2 ^ 31 - 1) (sw_init, d) ops = (sd, tr) ->
  all_ok tr /\ sw_cache (fst sd) = records /\ snd sd = d.
Proof.
  intros K key ltb p ops rs d sd tr (ops' & -> & B) R. cbn [sw_run sw_step] in R. destruct (sw_run K key ltb (2 ^ 31 - 1) (sw_set_prefix sw_init p, d) ops') as [sd2 t2] eqn:E. injection R as <- <-.
  destruct (never_written key ltb (2 ^ 31 - 1) p ops' rs eq_refl B (sw_set_prefix sw_init p) d sd2 t2 eq_refl eq_refl ltac:(cbn; lia) E) as (A & C & D & _). split; [constructor; [exact I|exact A]|]. split; [exact C|exact D].
Qed.
Print Assumptions C102_no_limit_refuted.

(** A session of five records, with a limit of one byte: the groups, and the shards of the run of C06_ex. *)
Example C102_ex : session [x61] ex_ops [[x03; x01]; [x02]; [x01]; [x02]; []] /\ Forall (fun r : bytes => 1 + Z.of_nat (length r) < 2 ^ 31) [[x03; x01]; [x02]; [x01]; [x02]; []] /\
  all_ok (snd (sw_run bytes id_key bytes_ltb 1 (sw_init, no_files) (ex_ops ++ [OpClose no_fault]))) /\
  cut 1 [[x03; x01]; [x02]; [x01]; [x02]; []] [[[x03; x01]]; [[x02]; [x01]]; [[x02]; []]].
Proof.
  split; [exists (tl ex_ops); split; [reflexivity|repeat constructor]|]. split; [repeat (apply Forall_cons; [reflexivity|]); apply Forall_nil|]. split; [vm_compute; repeat (apply Forall_cons; [first [exact I|reflexivity|eexists; reflexivity]|]); apply Forall_nil|].
  apply (cut_more 1 [[x03; x01]]); [cbv; intuition discriminate|discriminate|]. apply (cut_more 1 [[x02]; [x01]]); [cbv; intuition discriminate|discriminate|].
  apply cut_last; [discriminate|cbv; discriminate].
Qed.
