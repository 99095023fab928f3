(** C104, any shards: the shards need not have been made by a writer of this library; it is enough that they can be read to their ends. *)
From Verif Require Import Base M_RecordIO L_RecordIO S_RecordIO M_Dec M_Shard S_Shard L_Shard M_File P_Shard P_Multi M_Merger L_Merger L_ProcessAny L_MergerAny.
From Verif Require P_RecordIO.

Lemma intact_split (d : fs) shards ls : Forall2 (fun n l => exists f, d n = Some f /\ divided f l Clean) shards ls ->
  exists fls, Forall2 (fun n (f : bytes) => d n = Some f) shards fls /\ Forall2 (fun f l => read_records f = (l, Ok tt)) fls ls /\ Forall (Forall short) ls.
Proof.
  induction 1 as [|n l ns ls (f & H & D) F (fls & A & B & C)]; [exists []; repeat split; constructor|].
  exists (f :: fls). repeat split; constructor; try assumption; [exact (divided_read f l Clean D)|exact (divided_short f l Clean D)].
Qed.
(** On a device that does not fail, a merger that has only succeeded so far merges any intact sorted shards; and on any device, whenever it returns OK the
    output is the sorted file of all their records. *)
Theorem C104_any_intact_shards : forall (K : Type) (key : bytes -> K) ltb, strict_total ltb -> forall before g rs0,
  mg_run K key ltb mg_init before = (g, rs0) -> Forall (fun x => fst x = Ok tt) rs0 ->
  forall ties dv (d : fs) shards (ls : list (list bytes)) output,
  Forall2 (fun n l => exists f, d n = Some f /\ divided f l Clean) shards ls -> Forall (key_sorted key ltb) ls -> ~ In output shards ->
  ((forall n, md_miss dv n = false) -> md_out_open dv = false -> (forall i, md_write dv i = false) ->
   exists g' d', mg_merge K key ltb ties dv g d shards output = (g', d', Ok tt)) /\
  (forall g' d', mg_merge K key ltb ties dv g d shards output = (g', d', Ok tt) ->
   exists rs, d' output = Some (write_records rs) /\ key_sorted key ltb rs /\ Permutation rs (concat ls) /\ forall n, n <> output -> d' n = d n).
Proof.
  intros K key ltb HO before g rs0 R A ties dv d shards ls out F S N. rewrite (run_resets key ltb _ _ _ R A). destruct (intact_split d shards ls F) as (fls & F1 & F2 & B). split.
  - intros M1 M2 M3. destruct (merge_succeeds_any key ltb HO ties dv d shards fls ls out F1 F2 B S N M1 M2 M3) as (d' & E). eauto.
  - intros g' d' E. exact (merge_complete_any key ltb HO ties dv d shards fls ls out g' d' F1 F2 B S N E).
Qed.
Print Assumptions C104_any_intact_shards.

(** So on such a device, with sorted contents, OK is returned exactly if every shard is there and intact. *)
Theorem C104_ok_iff_intact : forall (K : Type) (key : bytes -> K) ltb, strict_total ltb -> forall before g rs0,
  mg_run K key ltb mg_init before = (g, rs0) -> Forall (fun x => fst x = Ok tt) rs0 ->
  forall ties (d : fs) shards output, ~ In output shards ->
  (forall n f l, In n shards -> d n = Some f -> divided f l Clean -> key_sorted key ltb l) ->
  ((exists g' d', mg_merge K key ltb ties md_good g d shards output = (g', d', Ok tt)) <-> forall n, In n shards -> exists f l, d n = Some f /\ divided f l Clean).
Proof.
  intros K key ltb HO before g rs0 R A ties d shards out N S. split.
  - intros (g' & d' & E). rewrite (run_resets key ltb _ _ _ R A) in E. destruct (merge_reads_all key ltb HO ties md_good d shards out g' d' E) as (_ & ls & rs & F & _).
    clear - F. induction F as [|n l ns ls (f & H & D) F IH]; intros m Hm; [destruct Hm|]. destruct Hm as [<-|Hm]; [|auto]. exists f, l. split; [exact H|]. apply P_RecordIO.C73_any_file. exact D.
  - intros I. assert (X : exists ls, Forall2 (fun n l => exists f, d n = Some f /\ divided f l Clean) shards ls /\ Forall (key_sorted key ltb) ls).
    { clear - I S. induction shards as [|n ns IH]; [exists []; split; constructor|]. destruct IH as (ls & F & Q); [intros; eapply S; try eassumption; right; assumption|intros; apply I; right; assumption|].
      destruct (I n (or_introl eq_refl)) as (f & l & H & D). exists (l :: ls). split; constructor; eauto. eapply S; [left; reflexivity|exact H|exact D]. }
    destruct X as (ls & F & Q). apply (proj1 (C104_any_intact_shards K key ltb HO before g rs0 R A ties md_good d shards ls out F Q N)); reflexivity.
Qed.
Print Assumptions C104_ok_iff_intact.

(** A shard with a header in a longer form (81 00 for 01) beside one as a writer makes it. *)
Example C104_any_ex : let d := fs_set (fs_set no_files [x61] [x81; x00; x01; x01; x03]) [x62] (write_records [[x02]]) in
  (exists l, divided [x81; x00; x01; x01; x03] l Clean /\ key_sorted id_key bytes_ltb l /\ [x81; x00; x01; x01; x03] <> write_records l) /\
  let '(_, d', o) := mg_merge bytes id_key bytes_ltb (fun _ => 0%nat) md_good mg_init d [[x61]; [x62]] [x63] in
  o = Ok tt /\ d' [x63] = Some (write_records [[x01]; [x02]; [x03]]).
Proof.
  split; [|vm_compute; split; reflexivity]. exists [[x01]; [x03]]. split; [apply P_RecordIO.C73_any_file; vm_compute; reflexivity|]. split; [|vm_compute; discriminate].
  repeat constructor.
Qed.

(** C64 on the same files: a session of the multi-file reader on any intact sorted files. *)
Theorem C64_session_any_files : forall (K : Type) (key : bytes -> K) ltb (d : fs) miss bad0 names (rs : list (list bytes)) ties bad fuel, strict_total ltb ->
  Forall2 (fun n l => exists f, d n = Some f /\ divided f l Clean) names rs -> (forall n, In n names -> miss n = false) ->
  Forall (key_sorted key ltb) rs -> (forall i, bad i = false) -> (length (concat rs) < fuel)%nat ->
  exists m1 m2 out, mo_open mo_init d miss bad0 names = (m1, Ok tt) /\ drain K key ltb fuel ties m1 = (m2, out, Ok tt) /\
    (forall e, In e out -> (snd e < length rs)%nat) /\ (forall i, (i < length rs)%nat -> from_file i out = nth i rs []) /\ key_sorted key ltb (map fst out) /\
    mo_close m2 bad = (mo_init, Ok tt).
Proof.
  intros K key ltb d miss bad0 names rs ties bad fuel HO F M S Hb L. destruct (intact_split d names rs F) as (fls & F1 & F2 & B).
  destruct (P_Shard.C09_multi_reader_merges K key ltb HO ties rs B S) as (out & E & P1 & P2 & P3). cbv zeta in E. destruct (drain_ok K key ltb _ ties _ _ E) as (mw & D & _).
  assert (R : rel (MO (map ROpen fls) []) (emb (MSR (map write_records rs) []))).
  { split; [|reflexivity]. unfold emb. cbn [mo_readers ms_readers]. clear - F2 B. induction F2 as [|f l fs ls H F IH]; [constructor|]. inversion B; subst. constructor; [exists f, l; auto|apply IH; assumption]. }
  destruct (drain_rel key ltb (ms_fuel (MSR (map write_records rs) [])) ties _ _ R) as (m' & m2' & out' & r & D1 & D2 & R'). rewrite D in D2. injection D2 as <- <- <-.
  assert (X : exists gs, mo_readers m' = map ROpen gs).
  { destruct R' as [F' _]. clear - F'. induction F' as [|x y a b (f & l & -> & _) F IH]; [exists []; reflexivity|]. destruct IH as (gs & ->). exists (f :: gs). reflexivity. }
  destruct X as (gs & X). exists (MO (map ROpen fls) []), m', out. split; [|split; [|split; [exact P1|split; [exact P2|split; [exact P3|]]]]].
  - unfold mo_open, mo_init. cbn [mo_readers mo_heap]. rewrite (open_readers_ok d miss bad0 names fls []); [reflexivity|].
    clear - F1 M. induction F1 as [|n f ns fs H F IH]; constructor; [split; [apply M; left; reflexivity|exact H]|]. apply IH. intros x Hx. apply M. right. exact Hx.
  - apply (drain_more key ltb _ fuel _ _ _ _ D1). rewrite <- (map_length fst out), (Permutation_length (P_Shard.C09_permutation out rs P1 P2)). exact L.
  - unfold mo_close. rewrite X. pose proof (close_open_readers gs 0 bad Hb) as Q. destruct (close_readers bad 0 _) as [q [[]| | | |]]; try discriminate. reflexivity.
Qed.
Print Assumptions C64_session_any_files.
Example C64_any_ex : let d := fs_set (fs_set no_files [x61] [x81; x00; x01; x01; x03]) [x62] (write_records [[x02]]) in
  let '(m1, o) := mo_open mo_init d (fun _ => false) (fun _ => false) [[x61]; [x62]] in
  o = Ok tt /\ snd (fst (drain bytes id_key bytes_ltb 4 (fun _ => 0%nat) m1)) = [([x01], 0%nat); ([x02], 1%nat); ([x03], 0%nat)].
Proof. vm_compute. split; reflexivity. Qed.
