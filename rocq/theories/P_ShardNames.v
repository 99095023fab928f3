(** C103: which files the Close of a sharding writer names. *)
From Verif Require Import Base M_RecordIO M_Dec M_Shard S_Shard L_Shard P_Shard S_ShardNames L_ShardNames.

(** For every earlier history up to a Close, every history after it, with any prefixes, records and faults: a Close that returns OK names the
    files created since that earlier Close, in order, and every file whose content is not what it was then is among them. *)
Theorem C103_close_names : forall (K : Type) (key : bytes -> K) ltb max_bytes hist d0 s1 d1 tr1 ops fl sd tr tr' ns ev,
  between_sessions hist -> sw_run K key ltb max_bytes (sw_init, d0) hist = ((s1, d1), tr1) ->
  no_close ops -> sw_run K key ltb max_bytes (s1, d1) (ops ++ [OpClose fl]) = (sd, tr) ->
  tr = tr' ++ [(OpClose fl, RClose (Ok ns), ev)] ->
  ns = created tr /\ forall n, snd sd n <> d1 n -> In n ns.
Proof.
  intros K key ltb mb hist d0 s1 d1 tr1 ops fl [s2 d2] tr tr' ns ev B R1 N R E.
  assert (S1 : sw_shards s1 = []). { destruct (run_names key ltb mb hist _ _ _ _ _ R1) as (_ & _ & C). destruct B as [->|B]; [injection R1 as <- <- <-; reflexivity|exact (C B)]. }
  assert (ns = created tr) as En. { rewrite (last_names key ltb mb ops fl s1 d1 _ tr tr' ns ev R N E), S1. reflexivity. }
  split; [exact En|]. intros n Hn. destruct (run_names key ltb mb _ _ _ _ _ _ R) as (A & _). rewrite En. destruct (in_dec (list_eq_dec Byte.byte_eq_dec) n (created tr)) as [I|I]; [exact I|]. destruct (Hn (A n I)).
Qed.
Print Assumptions C103_close_names.

(** util/recordio.h:209-210 says "since the last call to SetShardPrefix".  A prefix set again does not start a new list. *)
Theorem C103_since_prefix_refuted : exists ops1 p ops2 sd1 tr1 sd2 tr2 tr' ns ev,
  no_close ops1 /\ no_close ops2 /\ fault_free (ops1 ++ OpPrefix p :: ops2) /\
  sw_run bytes id_key bytes_ltb 0 (sw_init, no_files) ops1 = (sd1, tr1) /\
  sw_run bytes id_key bytes_ltb 0 sd1 (OpPrefix p :: ops2 ++ [OpClose no_fault]) = (sd2, tr2) /\
  tr2 = tr' ++ [(OpClose no_fault, RClose (Ok ns), ev)] /\ ns <> created tr2.
Proof.
  exists [OpPrefix [x61]; ex_w [x01]; ex_w [x02]], [x62], [ex_w [x03]].
  eexists _, _, _, _, [_; _], _, _. split; [repeat constructor; intros []|]. split; [repeat constructor; intros []|]. split; [repeat constructor|].
  split; [vm_compute; reflexivity|]. split; [vm_compute; reflexivity|]. split; [reflexivity|]. discriminate.
Qed.
Print Assumptions C103_since_prefix_refuted.

(** The caller is to delete the shards that Close names.  After a failed Close there can be shards that no call has named. *)
Theorem C103_unnamed_shards_refuted : exists prefix ops records fl,
  session prefix ops records /\
  let '((_, d), tr) := sw_run bytes id_key bytes_ltb 0 (sw_init, no_files) (ops ++ [OpClose fl]) in
  d [x61; x30] = Some (write_records [[x01]]) /\ forall op r ev ns, In (op, r, ev) tr -> r <> RClose (Ok ns).
Proof.
  exists [x61], [OpPrefix [x61]; ex_w [x01]; ex_w [x02]], [[x01]; [x02]], (Fault true None None).
  split; [exists [ex_w [x01]; ex_w [x02]]; split; [reflexivity|repeat constructor]|].
  vm_compute. split; [reflexivity|]. intros op r ev ns. repeat (intros [E|E]; [injection E as <- <- <-; discriminate|revert E]). intros [].
Qed.
Print Assumptions C103_unnamed_shards_refuted.

(** A writer used for one session, then for one with two prefixes: three files were created since the first
    Close and are named. *)
Example C103_ex : let hist := [OpPrefix [x61]; ex_w [x01]; OpClose no_fault] in
  let ops := [OpPrefix [x62]; ex_w [x01]; ex_w [x02]; OpPrefix [x63]; ex_w [x03]] in
  between_sessions hist /\ no_close ops /\
  let '(sd, _) := sw_run bytes id_key bytes_ltb 0 (sw_init, no_files) hist in
  let '(_, tr) := sw_run bytes id_key bytes_ltb 0 sd (ops ++ [OpClose no_fault]) in
  created tr = [[x62; x30]; [x63; x31]; [x63; x32]] /\ exists tr' ev, tr = tr' ++ [(OpClose no_fault, RClose (Ok [[x62; x30]; [x63; x31]; [x63; x32]]), ev)].
Proof.
  split; [right; eexists [_; _], _; reflexivity|]. split; [repeat constructor; intros []|]. vm_compute. split; [reflexivity|]. eexists [_; _; _; _; _], _. reflexivity.
Qed.
