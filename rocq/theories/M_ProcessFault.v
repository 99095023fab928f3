(** Models util/process_record_file_util.h ProcessRecordFile and ShardMerger of util/recordio.cc on a device that may fail: every open, peek, read,
    write, close and delete may meet a fault.  The objects' destructors run when the call returns, and that is part of the model. *)
From Verif Require Import Base M_RecordIO M_Dec M_Shard M_Process M_File.

(** ** A record reader over one open file.  file_posix.cc 69-92 HasMore: the end-of-file indicator, then the error indicator, then getc; both
    indicators stay once set.  [rd_n] counts the accesses to the device; [fl n] says whether access n fails. *)
Record rd := RD { rd_rest : bytes; rd_eof : bool; rd_err : bool; rd_n : nat }.
Definition rd_new (f : bytes) : rd := RD f false false 0.
Definition rd_has_more (fl : nat -> bool) (r : rd) : rd * outcome bool :=
  if rd_eof r then (r, Ok false)
  else if rd_err r then (r, Err Internal)
  else if fl (rd_n r) then (RD (rd_rest r) false true (S (rd_n r)), Err Internal)
  else match rd_rest r with
       | [] => (RD [] true false (S (rd_n r)), Ok false)
       | _ => (RD (rd_rest r) false false (S (rd_n r)), Ok true)
       end.
(** recordio.cc 104-122 Read, as in M_File.v.  All callers stop using a reader whose Read failed, so its state is dropped then; they call Read
    only after HasMore has returned true, so the two indicators are clear. *)
Definition rd_read (fl : nat -> bool) (r : rd) : outcome (bytes * rd) :=
  let* (x, f, c) := fr_record fl (rd_rest r) (rd_n r) in Ok (x, RD f (rd_eof r) (rd_err r) c).

(** process_record_file_util.h 71-76: the inner loop, with the has_more variable of line 66. *)
Fixpoint rf_chunk (fl : nat -> bool) (n : nat) (more : bool) (r : rd) : outcome (list bytes * bool * rd) :=
  match n with
  | O => Ok ([], more, r)
  | S k =>
      if more then
        let* (x, r1) := rd_read fl r in
        let '(r2, h) := rd_has_more fl r1 in
        let* more' := h in
        let* (rs, m, r3) := rf_chunk fl k more' r2 in Ok (x :: rs, m, r3)
      else Ok ([], more, r)
  end.

(** What the device does during one call.  Accesses to a file being read are numbered from 0; calls of the sharding writer are numbered from 0 and
    each meets one [fault] of M_Shard.v; records written to the output are numbered from 0.  The contents are those a file is left with when its
    fclose fails ([_close]), or when it is abandoned half-written ([dv_torn]). *)
Record device := Device {
  dv_in_open : bool; dv_in : nat -> bool; dv_in_close : bool;          (* the input file *)
  dv_shard : nat -> fault;                                             (* writing the shards *)
  dv_sh_open : nat -> bool; dv_sh : nat -> nat -> bool; dv_sh_close : nat -> bool;   (* reading shard i *)
  dv_empty_open : bool; dv_empty_close : option bytes;                 (* creating the output for no shards *)
  dv_out_open : bool; dv_out_write : nat -> bool; dv_out_close : option bytes; dv_torn : bytes;   (* the output *)
  dv_delete : nat -> bool }.
Definition good_device : device :=
  Device false (fun _ => false) false (fun _ => no_fault) (fun _ => false) (fun _ _ => false) (fun _ => false) false None false (fun _ => false) None []
    (fun _ => false).

(** The end of a call that returns [o]: the destructors run, and a PosixFile whose fclose failed closes the released stream once more
    (file_posix.cc 37-39, 61-64), which is undefined.  An aborted process runs no destructors. *)
Definition unwind {A} (dangling : bool) (o : outcome A) : outcome A :=
  match o with Ok _ | Err _ => if dangling then UB else o | _ => o end.

Section Keyed.
  Variable K : Type.
  Variable key : bytes -> K.
  Variable ltb : K -> K -> bool.
  Variable max_bytes : Z.
  Variable dv : device.

  (** ** The multi-file reader: MultiSortedReaderImpl (recordio.cc 156-295) after a successful Open. *)
  Record msf := MSF { mf_readers : list rd; mf_heap : list entry }.
  (** recordio.cc 222-242 HasMore: the first reader with more decides; otherwise an error of any reader is reported (with the code of the last). *)
  Fixpoint any_more (i : nat) (rs : list rd) : list rd * outcome bool :=
    match rs with
    | [] => ([], Ok false)
    | r :: rs' =>
        let '(r1, h) := rd_has_more (dv_sh dv i) r in
        match h with
        | Ok true => (r1 :: rs', Ok true)
        | Ok false => let '(rs1, o) := any_more (S i) rs' in (r1 :: rs1, o)
        | Err c => let '(rs1, o) := any_more (S i) rs' in (r1 :: rs1, match o with Ok false => Err c | _ => o end)
        | o => (r1 :: rs', o)
        end
    end.
  Definition mf_has_more (m : msf) : msf * outcome bool :=
    match mf_heap m with
    | _ :: _ => (m, Ok true)
    | [] => let '(rs, o) := any_more 0 (mf_readers m) in (MSF rs [], o)
    end.
  (** recordio.cc 260-275 ReadHeapDataFromReader. *)
  Definition mf_fill (m : msf) (i : nat) : outcome msf :=
    match nth_error (mf_readers m) i with
    | None => UB
    | Some r =>
        let '(r1, h) := rd_has_more (dv_sh dv i) r in
        let* more := h in
        if more : bool then
          let* (x, r2) := rd_read (dv_sh dv i) r1 in Ok (MSF (set_nth i r2 (mf_readers m)) ((x, i) :: mf_heap m))
        else Ok (MSF (set_nth i r1 (mf_readers m)) (mf_heap m))
    end.
  Fixpoint mf_fill_all (m : msf) (is : list nat) : outcome msf :=
    match is with [] => Ok m | i :: is' => let* m' := mf_fill m i in mf_fill_all m' is' end.
  (** recordio.cc 246-257 Read. *)
  Definition mf_read (t : nat) (m : msf) : outcome (bytes * msf) :=
    let* m1 := match mf_heap m with [] => mf_fill_all m (seq 0 (length (mf_readers m))) | _ :: _ => Ok m end in
    match heap_pop K key ltb t (mf_heap m1) with
    | None => UB
    | Some ((r, i), h) => let* m2 := mf_fill (MSF (mf_readers m1) h) i in Ok (r, m2)
    end.

  (** recordio.cc 587-590, the loop of Merge: HasMore().value() aborts the process when HasMore failed.  [i] records have been written. *)
  Fixpoint mf_loop (fuel : nat) (ties : nat -> nat) (m : msf) (i : nat) : outcome (list bytes) :=
    match fuel with
    | O => Diverge
    | S k =>
        let '(m1, h) := mf_has_more m in
        match h with
        | Err _ => Crash
        | Ok false => Ok []
        | Ok true =>
            let* (r, m2) := mf_read (ties O) m1 in
            if dv_out_write dv i then Err Internal
            else let* rs := mf_loop k (fun n => ties (S n)) m2 (S i) in Ok (r :: rs)
        | Crash => Crash | UB => UB | Diverge => Diverge
        end
    end.

  (** recordio.cc 175-199 Open: the contents of the files, or how many were open when one could not be opened. *)
  Fixpoint open_shards (d : fs) (i : nat) (names : list bytes) : list bytes + nat :=
    match names with
    | [] => inl []
    | n :: ns =>
        match (if dv_sh_open dv i then None else d n) with
        | None => inr i
        | Some f => match open_shards d (S i) ns with inl l => inl (f :: l) | inr j => inr j end
        end
    end.

  (** recordio.cc 567-596 Merge: the files, the result, and whether a stream of the merger is left dangling. *)
  Definition merge_f (ties : nat -> nat) (d : fs) (shards : list bytes) (out : bytes) : fs * outcome unit * bool :=
    let rest d :=
      match open_shards d 0 shards with
      | inr i => (d, Err NotFound, existsb (dv_sh_close dv) (seq 0 i))      (* the i files open are closed again *)
      | inl l =>
          if dv_out_open dv then (d, Err NotFound, false)
          else let d1 := fs_set d out [] in
          if existsb (bytes_eqb out) shards then (d1, UB, false)        (* as in M_Shard.merge *)
          else match mf_loop (ms_fuel (MSR l [])) ties (MSF (map rd_new l) []) 0 with
               | Ok rs =>
                   match dv_out_close dv with
                   | Some c => (fs_set d1 out c, Err Internal, true)
                   | None =>
                       let d2 := fs_set d1 out (write_records rs) in
                       if existsb (dv_sh_close dv) (seq 0 (length shards)) then (d2, Err Internal, true) else (d2, Ok tt, false)
                   end
               | Err c => (fs_set d1 out (dv_torn dv), Err c, false)
               | Crash => (fs_set d1 out (dv_torn dv), Crash, false)
               | UB => (fs_set d1 out (dv_torn dv), UB, false)
               | Diverge => (fs_set d1 out (dv_torn dv), Diverge, false)
               end
      end in
    match shards with
    | [] =>                                                    (* lines 570-574 *)
        if dv_empty_open dv then (d, Err NotFound, false)
        else match dv_empty_close dv with Some c => (fs_set d out c, Err Internal, true) | None => rest (fs_set d out []) end
    | _ => rest d
    end.

  (** recordio.cc 599-605 Delete. *)
  Fixpoint delete_f (i : nat) (d : fs) (names : list bytes) : fs * outcome unit :=
    match names with
    | [] => (d, Ok tt)
    | n :: ns =>
        if dv_delete dv i then (d, Err Internal)
        else match d n with None => (d, Err Internal) | Some _ => delete_f (S i) (fs_del d n) ns end
    end.

  (** ** ProcessRecordFile (process_record_file_util.h 47-126). *)
  Variable transform : bytes -> outcome bytes.
  Variable chunk_size threads : nat.

  (** The sharding writer, the files and the number of calls made to the writer. *)
  Definition wst := (sw * fs * nat)%type.
  (** Lines 112-114. *)
  Fixpoint write_all_f (x : wst) (rs : list bytes) : wst * outcome unit :=
    match rs with
    | [] => (x, Ok tt)
    | r :: rs' =>
        let '(s, d, n) := x in
        let '(s1, d1, o, _) := sw_write K key ltb max_bytes s d r (dv_shard dv n) in
        match o with Ok _ => write_all_f (s1, d1, S n) rs' | _ => ((s1, d1, S n), o) end
    end.
  (** Lines 108-116. *)
  Fixpoint write_threads_f (x : wst) (res : list (outcome (list bytes))) : wst * outcome unit :=
    match res with
    | [] => (x, Ok tt)
    | Ok rs :: res' => match write_all_f x rs with (x1, Ok _) => write_threads_f x1 res' | (x1, o) => (x1, o) end
    | Err c :: _ => (x, Err c)
    | Crash :: _ => (x, Crash) | UB :: _ => (x, UB) | Diverge :: _ => (x, Diverge)
    end.
  (** Lines 67-117. *)
  Fixpoint process_loop_f (fuel : nat) (out : bytes) (more : bool) (r : rd) (x : wst) : wst * outcome unit :=
    match fuel with
    | O => (x, Diverge)
    | S k =>
        if more then
          match rf_chunk (dv_in dv) chunk_size more r with
          | Ok (chunk, more', r') =>
              match per_thread_size (length chunk) threads with
              | Ok pts =>
                  let '(s, d, n) := x in
                  match write_threads_f (sw_set_prefix s out, d, n) (thread_results transform threads chunk pts) with
                  | (x1, Ok _) => process_loop_f k out more' r' x1
                  | (x1, o) => (x1, o)
                  end
              | _ => (x, UB)
              end
          | Err c => (x, Err c)
          | Crash => (x, Crash) | UB => (x, UB) | Diverge => (x, Diverge)
          end
        else (x, Ok tt)
    end.
  Definition dangling (s : sw) : bool := match sw_file s with PDangling => true | PClosed => false end.
  (** Lines 56-125.  A shard flushed over the input while it is read: [UB], as in M_Process.v. *)
  Definition process_f (ties : nat -> nat) (fuel : nat) (d : fs) (input output : bytes) : fs * outcome unit :=
    match (if dv_in_open dv then None else d input) with
    | None => (d, Err NotFound)
    | Some c =>
        let '(r, h) := rd_has_more (dv_in dv) (rd_new c) in
        match h with
        | Ok more =>
            match process_loop_f fuel output more r (sw_set_prefix sw_init output, d, O) with
            | ((s1, d1, n1), Ok _) =>
                if existsb (bytes_eqb input) (sw_shards s1) then (d1, UB)
                else if dv_in_close dv then (d1, unwind true (Err Internal))         (* line 118 *)
                else
                  let '(s2, d2, o, _) := sw_close K key ltb s1 d1 (dv_shard dv n1) in
                  match o with
                  | Ok shards =>
                      match merge_f ties d2 shards output with
                      | (d3, Ok _, _) => delete_f O d3 shards
                      | (d3, e, dang) => (d3, unwind dang e)
                      end
                  | Err e => (d2, unwind (dangling s2) (Err e))
                  | Crash => (d2, Crash) | UB => (d2, UB) | Diverge => (d2, Diverge)
                  end
            | ((s1, d1, n1), e) => (d1, unwind (dangling s1) e)
            end
        | Err e => (d, Err e)
        | Crash => (d, Crash) | UB => (d, UB) | Diverge => (d, Diverge)
        end
    end.
End Keyed.
