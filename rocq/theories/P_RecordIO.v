(** C03, C04, C05: record files and line files. *)
From Verif Require Import Base M_RecordIO S_RecordIO L_RecordIO L_Lines.

(** C03.  [short r]: fewer than 2^32 bytes. *)
Theorem C03_record_file_roundtrip : forall rs : list bytes,
  Forall (fun r : bytes => Z.of_nat (length r) < 2 ^ 32) rs ->
  read_records (write_records rs) = (rs, Ok tt).
Proof. exact read_write_records. Qed.
Print Assumptions C03_record_file_roundtrip.
Example C03_ex : Forall (fun r : bytes => Z.of_nat (length r) < 2 ^ 32) [[]; [x80; x00]; repeat xff 200; []] /\
  length (write_records [[]; [x80; x00]; repeat xff 200; []]) = 207%nat /\
  read_records (write_records [[]; [x80; x00]; repeat xff 200; []]) = ([[]; [x80; x00]; repeat xff 200; []], Ok tt).
Proof. split; [|split; vm_compute; reflexivity]. repeat constructor; vm_compute; reflexivity. Qed.

(** Reading one record from the front of a stream leaves exactly the rest. *)
Theorem C03_read_one : forall (r f : bytes), Z.of_nat (length r) < 2 ^ 32 ->
  f_has_more (encode_record r ++ f) = true /\ read_record (encode_record r ++ f) = Ok (r, f).
Proof. exact (fun r f H => conj (has_more_encode r f) (read_record_encode r f H)). Qed.
Print Assumptions C03_read_one.

(** The loop always terminates within the number of bytes of the file, whatever its content. *)
Theorem C03_read_terminates : forall f, snd (read_records f) <> Diverge.
Proof. exact (fun f => read_all_no_diverge (S (length f)) f (le_n _)). Qed.
Print Assumptions C03_read_terminates.

(** C04.  Exact behaviour at every cut point [n]: the complete records before the cut are returned, then
    - a clean end iff the cut is on a record boundary;
    - INTERNAL if the cut is inside the payload of record k;
    - undefined behaviour if it is inside the length prefix of record k.
    [_partial]: the English property wants an error in the last case too; see the refutation below. *)
Theorem C04_truncated_file_partial : forall rs : list bytes,
  Forall (fun r : bytes => Z.of_nat (length r) < 2 ^ 32) rs ->
  forall n, (n <= length (write_records rs))%nat ->
  exists k, (k <= length rs)%nat /\
    let base := length (write_records (firstn k rs)) in
    (n = base /\ read_records (firstn n (write_records rs)) = (firstn k rs, Ok tt)) \/
    (exists r, nth_error rs k = Some r /\
       (base + prefix_len r <= n < base + prefix_len r + length r)%nat /\
       read_records (firstn n (write_records rs)) = (firstn k rs, Err Internal)) \/
    (exists r, nth_error rs k = Some r /\
       (base < n < base + prefix_len r)%nat /\
       read_records (firstn n (write_records rs)) = (firstn k rs, UB)).
Proof. exact truncated_read. Qed.
Print Assumptions C04_truncated_file_partial.
Example C04_ex : read_records (firstn 5 (write_records [[x01]; [x02; x03]; [x04]])) = ([[x01]; [x02; x03]], Ok tt)
  /\ read_records (firstn 4 (write_records [[x01]; [x02; x03]; [x04]])) = ([[x01]], Err Internal).
Proof. split; vm_compute; reflexivity. Qed.

(** Full property for records shorter than 128 bytes (one-byte length prefixes). *)
Theorem C04_truncated_file_short_records : forall (rs : list bytes) n,
  Forall (fun r : bytes => Z.of_nat (length r) < 128) rs -> (n <= length (write_records rs))%nat ->
  exists k, (k <= length rs)%nat /\
    (read_records (firstn n (write_records rs)) = (firstn k rs, Ok tt) /\ n = length (write_records (firstn k rs)) \/
     read_records (firstn n (write_records rs)) = (firstn k rs, Err Internal)).
Proof. exact truncated_read_small. Qed.
Print Assumptions C04_truncated_file_short_records.

(** A file cut inside a length prefix: the reader uses an uninitialised record size. *)
Theorem C04_cut_in_prefix_refuted : exists rs n,
  Forall (fun r : bytes => Z.of_nat (length r) < 2 ^ 32) rs /\ (n <= length (write_records rs))%nat /\
  snd (read_records (firstn n (write_records rs))) = UB.
Proof. exact cut_in_prefix_witness. Qed.
Print Assumptions C04_cut_in_prefix_refuted.

(** C05. *)
Theorem C05_line_file_roundtrip : forall ls, Forall (good_line 2047) ls ->
  read_lines (write_lines ls) = (ls, Ok tt).
Proof. exact read_write_lines. Qed.
Print Assumptions C05_line_file_roundtrip.
Example C05_ex : Forall (good_line 2047) [[x61; x62]; []; [x0d; x61]].
Proof.
  assert (G : forall l : bytes, forallb (fun b => negb (byte_eqb b x0a) && negb (byte_eqb b x00)) l = true -> (forall t, l <> t ++ [x0d]) -> (length l <? 2047)%nat = true -> good_line 2047 l).
  { intros l H1 H2 H3. rewrite forallb_forall in H1. apply Nat.ltb_lt in H3. split; [intros H; apply H1 in H; discriminate|]. split; [intros H; apply H1 in H; discriminate|]. split; assumption. }
  repeat apply Forall_cons; try apply Forall_nil; apply G; try reflexivity; intros [|? [|? [|? ?]]]; discriminate.
Qed.

(** What the reader returns for an arbitrary file. *)
Theorem C05_line_reader_characterised : forall f, exists ps ls,
  pieces 2047 f ps /\ Forall2 reported ps ls /\ read_lines f = (ls, Ok tt).
Proof. exact read_lines_char. Qed.
Print Assumptions C05_line_reader_characterised.
(** The specification determines the answer. *)
Theorem C05_pieces_unique : forall cap f ps1 ps2, pieces cap f ps1 -> pieces cap f ps2 -> ps1 = ps2.
Proof. exact pieces_unique. Qed.
Print Assumptions C05_pieces_unique.
Theorem C05_reported_unique : forall p s t, reported p s -> reported p t -> s = t.
Proof. exact reported_fun. Qed.
Print Assumptions C05_reported_unique.

(** Refutations of the unrestricted round trip. *)
Theorem C05_long_line_refuted : exists l, ~ In x0a l /\ ~ In x00 l /\ ~ In x0d l /\
  length (fst (read_lines (write_lines [l]))) = 2%nat.
Proof.
  exists (repeat x61 (Z.to_nat 2047)).
  split; [|split; [|split]]; try (intros H; apply repeat_spec in H; discriminate).
  vm_compute; reflexivity.
Qed.
Print Assumptions C05_long_line_refuted.
Theorem C05_nul_refuted : exists l, ~ In x0a l /\ read_lines (write_lines [l]) = ([[x61]], Ok tt) /\ length l = 3%nat.
Proof. exists [x61; x00; x62]. split; [cbn; intuition discriminate|]. split; vm_compute; reflexivity. Qed.
Print Assumptions C05_nul_refuted.
Theorem C05_trailing_cr_refuted : exists l, ~ In x0a l /\ ~ In x00 l /\ read_lines (write_lines [l]) <> ([l], Ok tt).
Proof. exists [x61; x0d]. split; [cbn; intuition discriminate|]. split; [cbn; intuition discriminate|]. vm_compute; discriminate. Qed.
Print Assumptions C05_trailing_cr_refuted.

(** C73. Whatever bytes a file holds, there is exactly one way to divide it into records and an ending, and the reading loop finds it: the records before the ending, then a clean end
    at the end of the file, INTERNAL for a record shorter than announced, INVALID_ARGUMENT for a header of more than five bytes, and undefined behaviour for a header cut short. *)
Definition loop_result (e : ending) : outcome unit := match e with Clean => Ok tt | Short_record => Err Internal | Long_header => Err InvalidArgument | Cut_header => UB end.
Theorem C73_any_file : forall f, (exists rs e, divided f rs e) /\ forall rs e, divided f rs e <-> read_records f = (rs, loop_result e).
Proof.
  intros f. destruct (every_file_divided f) as (rs0 & e0 & D0). split; [exists rs0, e0; exact D0|]. intros rs e. split; [apply divided_read|]. intros E. rewrite (divided_read _ _ _ D0) in E. assert (rs0 = rs) by congruence.
  assert (Ee : ended e0 = loop_result e) by congruence. assert (e0 = e) by (destruct e0, e; cbn in Ee; congruence). subst. exact D0.
Qed.
Print Assumptions C73_any_file.
(** A header with more than 32 bits of digits announces the low 32 bits; then a record, then a header cut short. *)
Example C73_any_file_ex : divided [x81; x80; x80; x80; x70; x61; x01; x62; x80] [[x61]; [x62]] Cut_header /\
  read_records [x81; x80; x80; x80; x70; x61; x01; x62; x80] = ([[x61]; [x62]], UB) /\
  read_records [x00; xff; xff; xff; xff; xff; x01] = ([[]], Err InvalidArgument) /\ read_records [x02; x61] = ([], Err Internal).
Proof. split; [apply C73_any_file|split; [|split]]; vm_compute; reflexivity. Qed.

(** Every record file is divided in this way into the records written (C03), as long as they are shorter than 2^32 bytes. A longer record is announced with its length modulo 2^32
    and read as a shorter one; the rest of it is then taken for headers and records. *)
Theorem C73_written_record : forall r f, let k := Z.to_nat (Z.of_nat (length r) mod 2 ^ 32) in
  read_record (encode_record r ++ f) = Ok (firstn k r, skipn k r ++ f) /\ (Z.of_nat (length r) < 2 ^ 32 <-> read_record (encode_record r ++ f) = Ok (r, f)).
Proof.
  intros r f k. pose proof (read_oversized r f) as E. cbv zeta in E. fold k in E. split; [exact E|]. split; [apply read_record_encode|]. intros E'. rewrite E in E'. assert (Ek : firstn k r = r) by congruence.
  assert (length r <= k)%nat by (rewrite <- Ek at 1; rewrite firstn_length; lia). pose proof (Z.mod_pos_bound (Z.of_nat (length r)) (2 ^ 32) ltac:(lia)). unfold k in *. lia.
Qed.
Print Assumptions C73_written_record.
Example C73_written_record_ex : Z.of_nat (length (repeat x61 300)) < 2 ^ 32 /\ firstn 2 (encode_record (repeat x61 300)) = [xac; x02].
Proof. split; vm_compute; reflexivity. Qed.
