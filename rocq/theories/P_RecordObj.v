(** C91: record readers and writers as objects, with calls made after a failure. *)
From Verif Require Import Base M_RecordIO S_RecordIO L_RecordIO M_Shard L_Shard M_File S_File M_RecordObj S_RecordObj L_RecordObj.

Definition is_clean (e : ending) : bool := match e with Clean => true | _ => false end.
Lemma divided_clean f rs e : divided f rs e -> rs = fst (read_records f) /\ is_clean e = clean f.
Proof. intros D. unfold clean. rewrite (divided_read f rs e D). split; [reflexivity|]. destruct e; reflexivity. Qed.
(** Whatever calls are made and whatever the device does, the answers up to the first failure are those of the ideal reader of the file, cut short at most; with a
    device that works they are exactly those. *)
Theorem C91_reader : forall fl name f ops rs e, divided f rs e -> let got := before_failure (rr_run fl (rr_opened name f) ops) in
  prefix_of got (ideal rs (is_clean e) ops) /\ ((forall i, fl i = None) -> got = ideal rs (is_clean e) ops).
Proof. intros fl name f ops rs e D got. destruct (divided_clean f rs e D) as [-> ->]. apply run_live. Qed.
Print Assumptions C91_reader.
(** After an INTERNAL answer no record is delivered any more. If the file itself is intact, so that only the device can have failed, every later call answers INTERNAL:
    nobody takes the failure for the end of the file. *)
Theorem C91_reader_final : forall fl name f ops a b, rr_run fl (rr_opened name f) ops = a ++ Err Internal :: b ->
  (forall r, ~ In (Ok (ARecord r)) b) /\ ~ In (Ok (AMore true)) b /\ (forall rs, divided f rs Clean -> Forall (fun x => x = Err Internal) b).
Proof.
  intros fl name f ops a b E. destruct (run_internal fl ops name f 0 a b E) as [I|I].
  - split; [intros r H|split; [intros H|intros _ _; exact I]]; rewrite Forall_forall in I; specialize (I _ H); discriminate I.
  - split; [intros r H|split; [intros H|]]; [rewrite Forall_forall in I; destruct (I _ H) as [X|X]; discriminate X..|].
    intros rs D. apply (run_internal_clean fl ops name f 0 a b); [|exact E]. rewrite <- (proj2 (divided_clean f rs Clean D)). reflexivity.
Qed.
Print Assumptions C91_reader_final.
(** Two records; the device fails at the payload of the second one. *)
Example C91_reader_case : divided [x01; x61; x01; x62] [[x61]; [x62]] Clean /\
  rr_run (fun i => if (i =? 5)%nat then Some O else None) (rr_opened [] [x01; x61; x01; x62]) [RdRead; RdRead; RdHasMore; RdRead] = [Ok (ARecord [x61]); Err Internal; Err Internal; Err Internal] /\
  rr_run (fun _ => None) (rr_opened [] [x01; x61; x01; x62]) [RdRead; RdHasMore; RdRead; RdHasMore] = [Ok (ARecord [x61]); Ok (AMore true); Ok (ARecord [x62]); Ok (AMore false)].
Proof.
  split; [|split; vm_compute; reflexivity]. destruct (every_file_divided [x01; x61; x01; x62]) as (rs & e & D). pose proof (divided_read _ _ _ D) as R. vm_compute in R.
  destruct e; try discriminate R. injection R as <-. exact D.
Qed.
(** After INVALID_ARGUMENT the reader goes on with the sixth byte, and delivers what is no record of the file. *)
Theorem C91_reader_resumes_refuted : forall name r, Z.of_nat (length r) < 128 -> let f := [xff; xff; xff; xff; xff] ++ encode_record r in
  divided f [] Long_header /\ rr_run (fun _ => None) (rr_opened name f) [RdRead; RdHasMore; RdRead; RdHasMore] = [Err InvalidArgument; Ok (AMore true); Ok (ARecord r); Ok (AMore false)].
Proof.
  intros name r L f. split; [apply div_long; [reflexivity|repeat constructor; vm_compute; discriminate]|].
  assert (E : encode_record r = zb (Z.of_nat (length r)) :: r).
  { unfold encode_record, write_varint32. cbn [varint_groups]. rewrite Z.mod_small by lia. replace (Z.of_nat (length r) <? 128) with true by (symmetry; apply Z.ltb_lt; lia). reflexivity. }
  unfold f. rewrite E. unfold rr_opened. set (b := zb (Z.of_nat (length r))).
  assert (B : bz b = Z.of_nat (length r)) by (unfold b; rewrite bz_zb, Z.mod_small by lia; reflexivity).
  cbn [app rr_run rr_step]. unfold rr_read at 1. cbn [rr_varint pf_has_more strikes pf_read Nat.leb length firstn skipn].
  change (bz xff <? 128) with false. cbn [rr_varint pf_has_more strikes pf_read Nat.leb length firstn skipn bind].
  cbn [rr_step pf_has_more strikes]. unfold rr_read. cbn [rr_varint pf_has_more strikes pf_read Nat.leb length firstn skipn].
  replace (bz b <? 128) with true by (symmetry; apply Z.ltb_lt; lia). cbn [app]. unfold read_varint32. cbn [varint_value].
  replace (Z.to_nat ((bz b mod 128 + 128 * 0) mod 2 ^ 32)) with (length r) by (rewrite B, (Z.mod_small _ 128), Z.mod_small by lia; lia).
  unfold pf_read at 1. rewrite Nat.leb_refl, firstn_all, skipn_all. reflexivity.
Qed.
Print Assumptions C91_reader_resumes_refuted.
Example C91_reader_resumes_case : Z.of_nat (length [x61; x62]) < 128.
Proof. reflexivity. Qed.

(** ** Writers. *)
(** Open, Write of every record and Close without a failing call leave exactly the records in the file. When a Write fails after [k] bytes and the writer is closed, every
    record written before it is in the file, and the failed one is not; the file ends properly if nothing of the record was written, and in the middle of it otherwise (see C04). *)
Theorem C91_writer_stops : forall lm d name good r k, Forall (fun x : bytes => Z.of_nat (length x) < 2 ^ 32) (r :: good) -> (k < length (encode_record r))%nat ->
  exists s d' f, pf_run lm (PNull, d) (rw_session name (map (fun x => (x, None)) good ++ [(r, Some k)])) =
    ((s, d'), Ok RNone :: map (fun _ => Ok RNone) good ++ [Err Internal; Ok RNone]) /\ d' name = Some f /\ f = write_records good ++ firstn k (encode_record r) /\
    fst (read_records f) = good /\ (snd (read_records f) = Ok tt <-> k = O) /\ (snd (read_records f) = UB <-> (0 < k < prefix_len r)%nat) /\
    (snd (read_records f) = Err Internal <-> (prefix_len r <= k)%nat).
Proof.
  intros lm d name good r k S K. inversion S as [|? ? Sr Sg]; subst. rewrite session_run. eexists PNull, (fs_set (fs_set d name []) name (flat_map piece_of _)), _. split; [|split; [unfold fs_set; rewrite bytes_eqb_refl; reflexivity|]].
  { f_equal. f_equal. rewrite map_app, <- app_assoc, map_map. f_equal. cbn [map app]. unfold status_of. cbn [fst snd]. replace (k <? length (encode_record r))%nat with true by (symmetry; apply Nat.ltb_lt, K). reflexivity. }
  assert (F : flat_map piece_of (map (fun x : bytes => (x, None)) good ++ [(r, Some k)]) = write_records good ++ firstn k (encode_record r)).
  { rewrite flat_map_app. cbn [flat_map]. rewrite app_nil_r. f_equal. unfold write_records. induction good as [|g gs IH]; [reflexivity|]. cbn [map flat_map]. rewrite IH; [reflexivity| |]; [constructor|]; inversion Sg; assumption. }
  split; [exact F|]. rewrite F. clear F.
  assert (G : forall f, read_records (write_records good ++ f) = (good ++ fst (read_records f), snd (read_records f))).
  { intros f. clear - Sg. induction Sg as [|g gs Sg1 Sg IH]; [cbn [write_records flat_map app]; destruct (read_records f) as [a b]; reflexivity|]. rewrite write_records_cons, <- app_assoc, read_records_cons by exact Sg1. rewrite IH. reflexivity. }
  rewrite G. cbn [fst snd]. pose proof (encode_record_length r) as Le. pose proof (prefix_len_pos r) as Lp.
  assert (C : k = O /\ read_records (firstn k (encode_record r)) = ([], Ok tt) \/ (0 < k < prefix_len r)%nat /\ read_records (firstn k (encode_record r)) = ([], UB) \/
              (prefix_len r <= k)%nat /\ read_records (firstn k (encode_record r)) = ([], Err Internal)).
  {
    destruct (Nat.eq_dec k 0) as [->|N]; [left; split; reflexivity|]. right. destruct (Nat.lt_ge_cases k (prefix_len r)) as [P|P].
    - left. split; [lia|]. apply read_cut_prefix; lia.
    - right. split; [lia|]. apply read_cut_payload; [exact Sr|lia]. }
  destruct C as [[-> ->]|[[P ->]|[P ->]]]; cbn [fst snd]; rewrite app_nil_r; (split; [reflexivity|]); (split; [|split]); (split; intros X); first [reflexivity | discriminate X | lia].
Qed.
Print Assumptions C91_writer_stops.
Theorem C91_writer_complete : forall lm d name rs, Forall (fun x : bytes => Z.of_nat (length x) < 2 ^ 32) rs ->
  exists s d' f, pf_run lm (PNull, d) (rw_session name (map (fun x => (x, None)) rs)) = ((s, d'), Ok RNone :: map (fun _ => Ok RNone) rs ++ [Ok RNone]) /\
  d' name = Some f /\ read_records f = (rs, Ok tt) /\ forall other, other <> name -> d' other = d other.
Proof.
  intros lm d name rs S. rewrite session_run. eexists PNull, (fs_set (fs_set d name []) name (flat_map piece_of _)), _. split; [|split; [unfold fs_set; rewrite bytes_eqb_refl; reflexivity|split]].
  - f_equal. f_equal. f_equal. rewrite map_map. reflexivity.
  - replace (flat_map piece_of (map (fun x : bytes => (x, None)) rs)) with (write_records rs); [apply read_write_records, S|].
    unfold write_records. clear S. induction rs as [|g gs IH]; [reflexivity|]. cbn [map flat_map]. rewrite IH. reflexivity.
  - intros other N. unfold fs_set. destruct (bytes_eqb other name) eqn:E; [|reflexivity]. apply bytes_eqb_eq in E. contradiction.
Qed.
Print Assumptions C91_writer_complete.
(** On a device that writes a record or nothing of it, one may go on after a failure: the file holds the records whose Write succeeded. *)
Theorem C91_writer_atomic : forall lm d name ws, Forall (fun w : bytes * option nat => Z.of_nat (length (fst w)) < 2 ^ 32 /\ (snd w = None \/ snd w = Some O)) ws ->
  exists s d' f, pf_run lm (PNull, d) (rw_session name ws) = ((s, d'), Ok RNone :: map (fun w : bytes * option nat => if snd w then Err Internal else Ok RNone) ws ++ [Ok RNone]) /\
  d' name = Some f /\ read_records f = (map fst (filter (fun w : bytes * option nat => if snd w then false else true) ws), Ok tt).
Proof.
  intros lm d name ws S. rewrite session_run. eexists PNull, (fs_set (fs_set d name []) name (flat_map piece_of _)), _. split; [|split; [unfold fs_set; rewrite bytes_eqb_refl; reflexivity|]].
  - f_equal. f_equal. f_equal. apply map_ext_in. intros [r o] I. rewrite Forall_forall in S. destruct (S _ I) as [_ [E|E]]; cbn [snd] in E; subst o; [reflexivity|].
    unfold status_of. cbn [fst snd]. destruct (encode_record_nonempty r) as (b & t & ->). reflexivity.
  - replace (flat_map piece_of ws) with (write_records (map fst (filter (fun w : bytes * option nat => if snd w then false else true) ws))).
    + apply read_write_records. induction S as [|[r o] ws [L _] S IH]; [constructor|]. cbn [filter snd]. destruct o; [exact IH|]. constructor; [exact L|exact IH].
    + induction S as [|[r o] ws [L [E|E]] S IH]; [reflexivity| |]; cbn [snd] in E; subst o; cbn [filter snd flat_map].
      * cbn [map fst]. rewrite write_records_cons, IH. reflexivity.
      * rewrite IH. unfold piece_of at 2. reflexivity.
Qed.
Print Assumptions C91_writer_atomic.
Example C91_writer_case : Forall (fun w : bytes * option nat => Z.of_nat (length (fst w)) < 2 ^ 32 /\ (snd w = None \/ snd w = Some O)) [([x61], None); ([x62], Some O); ([x63], None)] /\
  snd (pf_run 16 (PNull, fun _ => None) (rw_session [x66] [([x61], None); ([x62], Some O); ([x63], None)])) = [Ok RNone; Ok RNone; Err Internal; Ok RNone; Ok RNone].
Proof. split; [|reflexivity]. repeat (constructor; [cbn [fst snd]; split; [reflexivity|auto]|]). constructor. Qed.
(** The writer does not remember a failure. When the length of a record was written and the record was not, the next record is accepted, Close succeeds, and the file is read
    without an error as one record that was never written, while the record that was accepted is lost. *)
Theorem C91_writer_continues_refuted : forall lm d name r r', Z.of_nat (length r) < 128 -> length r = length (encode_record r') ->
  exists s d' f, pf_run lm (PNull, d) (rw_session name [(r, Some 1%nat); (r', None)]) = ((s, d'), [Ok RNone; Err Internal; Ok RNone; Ok RNone]) /\
  d' name = Some f /\ read_records f = ([encode_record r'], Ok tt) /\ encode_record r' <> r'.
Proof.
  intros lm d name r r' L E. rewrite session_run. pose proof (encode_record_length r') as Le. pose proof (prefix_len_pos r') as Lp.
  assert (Er : encode_record r = zb (Z.of_nat (length r)) :: r).
  { unfold encode_record, write_varint32. cbn [varint_groups]. rewrite Z.mod_small by lia. replace (Z.of_nat (length r) <? 128) with true by (symmetry; apply Z.ltb_lt; lia). reflexivity. }
  eexists PNull, (fs_set (fs_set d name []) name (flat_map piece_of _)), _. split; [|split; [unfold fs_set; rewrite bytes_eqb_refl; reflexivity|split]].
  - f_equal. cbn [map app]. unfold status_of. cbn [fst snd]. rewrite Er. cbn [length]. destruct r as [|b r]; [exfalso; cbn [length] in E; lia|]. reflexivity.
  - cbn [flat_map]. unfold piece_of. cbn [fst snd]. rewrite Er, app_nil_r. cbn [firstn app].
    assert (Ee : zb (Z.of_nat (length r)) :: encode_record r' = encode_record (encode_record r')).
    { unfold encode_record at 2, write_varint32. cbn [varint_groups]. rewrite <- E, Z.mod_small by lia. replace (Z.of_nat (length r) <? 128) with true by (symmetry; apply Z.ltb_lt; lia). reflexivity. }
    rewrite Ee. rewrite <- (app_nil_r (encode_record (encode_record r'))). apply (read_write_records [encode_record r']). constructor; [|constructor]. unfold short. lia.
  - intros X. apply (f_equal (@length byte)) in X. lia.
Qed.
Print Assumptions C91_writer_continues_refuted.
Example C91_writer_continues_case : Z.of_nat (length [x61; x62]) < 128 /\ length [x61; x62] = length (encode_record [x63]).
Proof. split; reflexivity. Qed.
