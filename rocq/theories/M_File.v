(** Models util/file_posix.cc as an object over its whole life: PosixFile with open, read, write and close calls, any of which may meet a
    device fault; the record reader of util/recordio.cc over such an object; and MultiSortedReaderImpl as an object that may be opened and
    closed repeatedly. *)
From Verif Require Import Base M_RecordIO M_Shard.

(** ** PosixFile (file_posix.cc 33-151).
    f_ and the stream behind it.  [PDangle]: fclose failed; f_ still points to the stream, which fclose has released all the same.
    A stream for reading keeps the unread bytes, the end-of-file and the error indicator.  A stream for writing keeps the bytes accepted so far;
    what the disk holds before fclose is not specified, the model stores the bytes at Close.  Modes other than "r" and "w" are not used by the
    code.  Simplification: the content read is the content at fopen (nobody else writes the file meanwhile). *)
Inductive pstate :=
| PNull
| PRead (name rest : bytes) (eof err : bool)
| PWrite (name written : bytes)
| PDangle.
Inductive mode := MRead | MWrite.
(** Calls with the faults they meet.  Open: fopen fails.  Close: fclose fails and leaves this content in a written file.  HasMore, ReadLine: the device
    fails.  Read: the device fails after n bytes.  Write(content, length): the device fails after n bytes. *)
Inductive pop :=
| OpOpen (name : bytes) (m : mode) (fails : bool)
| OpCloseF (fails : option bytes)
| OpHasMore (fails : bool)
| OpRead (n : nat) (fails : option nat)
| OpReadLine (fails : bool)
| OpWriteF (content : bytes) (n : nat) (fails : option nat)
| OpDestroy.
Inductive pres := RNone | RBool (b : bool) | RBytes (s : bytes).

(** file_posix.cc 42-54 Open. *)
Definition pf_open (s : pstate) (d : fs) (name : bytes) (m : mode) (fails : bool) : pstate * fs * outcome pres :=
  match s with
  | PNull =>
      if fails then (PNull, d, Err NotFound)
      else match m with
           | MRead => match d name with Some f => (PRead name f false false, d, Ok RNone) | None => (PNull, d, Err NotFound) end
           | MWrite => (PWrite name [], fs_set d name [], Ok RNone)
           end
  | _ => (s, d, Err Internal)
  end.
(** file_posix.cc 56-67 Close: returns before resetting f_ when fclose fails. fclose on a released stream is undefined. *)
Definition pf_close (s : pstate) (d : fs) (fails : option bytes) : pstate * fs * outcome pres :=
  match s with
  | PNull => (s, d, Err Internal)
  | PDangle => (s, d, UB)
  | PRead _ _ _ _ => match fails with Some _ => (PDangle, d, Err Internal) | None => (PNull, d, Ok RNone) end
  | PWrite name w => match fails with Some c => (PDangle, fs_set d name c, Err Internal) | None => (PNull, fs_set d name w, Ok RNone) end
  end.
(** file_posix.cc 69-92 HasMore. getc on a stream opened for writing fails. *)
Definition pf_has_more (s : pstate) (fails : bool) : pstate * outcome pres :=
  match s with
  | PNull => (s, Err Internal)
  | PDangle => (s, UB)
  | PWrite _ _ => (s, Err Internal)
  | PRead name rest eof err =>
      if eof then (s, Ok (RBool false))
      else if err then (s, Err Internal)
      else if fails then (PRead name rest eof true, Err Internal)
      else match rest with [] => (PRead name [] true err, Ok (RBool false)) | _ => (s, Ok (RBool true)) end
  end.
(** file_posix.cc 94-105 Read(length): fread of zero bytes succeeds on any stream. *)
Definition pf_read (s : pstate) (n : nat) (fails : option nat) : pstate * outcome pres :=
  match s with
  | PNull => (s, Err Internal)
  | PDangle => (s, UB)
  | PWrite _ _ => (s, if Nat.eqb n 0 then Ok (RBytes []) else Err Internal)
  | PRead name rest eof err =>
      match fails with
      | Some k => if (k <? Nat.min n (length rest))%nat then (PRead name (skipn k rest) eof true, Err Internal)
                  else if (n <=? length rest)%nat then (PRead name (skipn n rest) eof err, Ok (RBytes (firstn n rest)))
                  else (PRead name [] true err, Err Internal)
      | None => if (n <=? length rest)%nat then (PRead name (skipn n rest) eof err, Ok (RBytes (firstn n rest)))
                else (PRead name [] true err, Err Internal)
      end
  end.
(** file_posix.cc 107-132 ReadLine: also fails when the error indicator was set before (the line is consumed then). *)
Definition pf_read_line (line_max : nat) (s : pstate) (fails : bool) : pstate * outcome pres :=
  match s with
  | PNull => (s, Err Internal)
  | PDangle => (s, UB)
  | PWrite _ _ => (s, Err Internal)
  | PRead name rest eof err =>
      match rest with
      | [] => (PRead name [] true err, Err Internal)
      | _ =>
          if fails then (PRead name rest eof true, Err Internal)
          else let '(buf, rest') := fgets (line_max - 1) rest in
               let hit_end := match rest' with [] => negb (existsb (byte_eqb x0a) buf) && (length buf <? line_max - 1)%nat | _ => false end in
               (PRead name rest' (eof || hit_end) err, if err then Err Internal else Ok (RBytes (chomp (c_str buf))))
      end
  end.
(** file_posix.cc 134-145 Write(content, length): length beyond the content reads out of bounds. *)
Definition pf_write (s : pstate) (content : bytes) (n : nat) (fails : option nat) : pstate * outcome pres :=
  match s with
  | PNull => (s, Err Internal)
  | PDangle => (s, UB)
  | PRead name rest eof err => if Nat.eqb n 0 then (s, Ok RNone) else (PRead name rest eof true, Err Internal)
  | PWrite name w =>
      if (length content <? n)%nat then (s, UB)
      else match fails with
           | Some k => if (k <? n)%nat then (PWrite name (w ++ firstn k content), Err Internal) else (PWrite name (w ++ firstn n content), Ok RNone)
           | None => (PWrite name (w ++ firstn n content), Ok RNone)
           end
  end.
(** file_posix.cc 37-39 the destructor: closes what is open, ignoring errors. *)
Definition pf_destroy (s : pstate) (d : fs) : pstate * fs * outcome pres :=
  match s with
  | PNull => (PNull, d, Ok RNone)
  | PDangle => (s, d, UB)
  | PRead _ _ _ _ => (PNull, d, Ok RNone)
  | PWrite name w => (PNull, fs_set d name w, Ok RNone)
  end.
Definition pf_step (line_max : nat) (sd : pstate * fs) (op : pop) : (pstate * fs) * outcome pres :=
  let (s, d) := sd in
  let keep (x : pstate * outcome pres) := let (s', r) := x in ((s', d), r) in
  match op with
  | OpOpen name m fails => pf_open s d name m fails
  | OpCloseF fails => pf_close s d fails
  | OpHasMore fails => keep (pf_has_more s fails)
  | OpRead n fails => keep (pf_read s n fails)
  | OpReadLine fails => keep (pf_read_line line_max s fails)
  | OpWriteF content n fails => keep (pf_write s content n fails)
  | OpDestroy => pf_destroy s d
  end.
(** A history of calls on one object with their results; nothing is defined after undefined behaviour. *)
Fixpoint pf_run (line_max : nat) (sd : pstate * fs) (ops : list pop) : (pstate * fs) * list (outcome pres) :=
  match ops with
  | [] => (sd, [])
  | op :: ops =>
      let (sd', r) := pf_step line_max sd op in
      match r with
      | UB => (sd', [UB])
      | _ => let (sd'', rs) := pf_run line_max sd' ops in (sd'', r :: rs)
      end
  end.

(** ** RecordReaderImpl over a PosixFile open for reading, with device faults.  [fl i] says whether the i-th device access fails, and [c] counts
    the accesses; for the purpose of the reading loop a failing Read may consume any number of bytes, as nothing is read after it.
    recordio.cc 47-83 ExtractVarint32: HasMore, then Read(1), byte by byte. *)
Section Faulty.
  Variable fl : nat -> bool.
  Fixpoint fr_varint (n : nat) (f : bytes) (c : nat) : outcome (bytes * bool * bytes * nat) :=
    match n with
    | O => Err InvalidArgument
    | S k =>
        if fl c then Err Internal                               (* HasMore fails *)
        else match f with
             | [] => Ok ([], false, [], S c)
             | b :: f' =>
                 if fl (S c) then Err Internal                  (* Read(1) fails *)
                 else if bz b <? 128 then Ok ([b], true, f', S (S c))
                 else let* (s, t, r, c') := fr_varint k f' (S (S c)) in Ok (b :: s, t, r, c')
             end
    end.
  (** recordio.cc 104-122 Read. *)
  Definition fr_record (f : bytes) (c : nat) : outcome (bytes * bytes * nat) :=
    let* (s, t, f1, c1) := fr_varint 5 f c in
    if t : bool then
      if fl c1 then Err Internal
      else let* (r, f2) := f_read (Z.to_nat (read_varint32 s)) f1 in Ok (r, f2, S c1)
    else UB.
  (** while (HasMore()) Read(&r). *)
  Fixpoint fr_read_all (fuel : nat) (f : bytes) (c : nat) : list bytes * outcome unit :=
    match fuel with
    | O => ([], Diverge)
    | S k =>
        if fl c then ([], Err Internal)
        else if f_has_more f then
          match fr_record f (S c) with
          | Ok (r, f', c') => let '(rs, e) := fr_read_all k f' c' in (r :: rs, e)
          | Err x => ([], Err x)
          | Crash => ([], Crash)
          | UB => ([], UB)
          | Diverge => ([], Diverge)
          end
        else ([], Ok tt)
    end.
End Faulty.

(** ** MultiSortedReaderImpl as an object (recordio.cc 156-295).  A reader is a RecordReader with its PosixFile. *)
Inductive rstate := RClosed | ROpen (rest : bytes) | RDangle.
Section Multi.
  Variable K : Type.
  Variable key : bytes -> K.
  Variable ltb : K -> K -> bool.
  Record mobj := MO { mo_readers : list rstate; mo_heap : list (bytes * nat) }.
  Definition mo_init : mobj := MO [] [].

  (** Read of one record and where the stream stands afterwards: at the end after a short read, after five bytes of an overlong prefix. *)
  Definition read_record_at (f : bytes) : outcome bytes * bytes :=
    match varint_loop 5 f with
    | Ok (s, true, r) => let n := Z.to_nat (read_varint32 s) in if (n <=? length r)%nat then (Ok (firstn n r), skipn n r) else (Err Internal, [])
    | Ok (_, false, _) => (UB, [])
    | Err c => (Err c, skipn 5 f)
    | Crash => (Crash, f) | UB => (UB, f) | Diverge => (Diverge, f)
    end.

  (** recordio.cc 175-199 Open: opens the files in order; when one cannot be opened, closes those before it, from the last to the first, and
      removes one reader from the back of the list each time - so that one reader always stays.  [miss n]: opening file n fails although it
      exists.  [bad i]: fclose of reader i fails during the clean-up; a reader is destroyed one turn after it was closed, and destroying one
      whose fclose failed is undefined (see PosixFile); the first reader is not destroyed. *)
  Fixpoint open_readers (d : fs) (miss : bytes -> bool) (bad : nat -> bool) (done : list rstate) (names : list bytes) : list rstate * outcome unit :=
    match names with
    | [] => (done, Ok tt)
    | n :: ns =>
        match (if miss n then None else d n) with
        | Some f => open_readers d miss bad (done ++ [ROpen f]) ns
        | None =>
            if existsb bad (seq 1 (length done - 1)) then ([], UB)
            else ([match done with [] => RClosed | _ => if bad O then RDangle else RClosed end], Err NotFound)
        end
    end.
  Definition mo_open (m : mobj) (d : fs) (miss : bytes -> bool) (bad : nat -> bool) (names : list bytes) : mobj * outcome unit :=
    match mo_readers m with
    | _ :: _ => (m, Err Internal)
    | [] => let (rs, r) := open_readers d miss bad [] names in (MO rs (mo_heap m), r)
    end.
  (** recordio.cc 201-220 Close: stops at the first reader that cannot be closed; clears the object only if all could.
      [bad i]: fclose of reader i fails. *)
  Fixpoint close_readers (bad : nat -> bool) (i : nat) (rs : list rstate) : list rstate * outcome unit :=
    match rs with
    | [] => ([], Ok tt)
    | RClosed :: _ => (rs, Err Internal)
    | RDangle :: _ => (rs, UB)
    | ROpen _ :: rs' =>
        if bad i then (RDangle :: rs', Err Internal)
        else let (rs'', r) := close_readers bad (S i) rs' in (RClosed :: rs'', r)
    end.
  Definition mo_close (m : mobj) (bad : nat -> bool) : mobj * outcome unit :=
    match close_readers bad 0 (mo_readers m) with
    | (_, Ok _) => (mo_init, Ok tt)
    | (rs, r) => (MO rs (mo_heap m), r)
    end.
  (** recordio.cc 222-242 HasMore: the first reader with more decides; otherwise an error of any reader is reported. *)
  Fixpoint readers_have_more (rs : list rstate) : outcome bool :=
    match rs with
    | [] => Ok false
    | ROpen f :: rs' => if f_has_more f then Ok true else readers_have_more rs'
    | RClosed :: rs' => match readers_have_more rs' with Ok false => Err Internal | r => r end
    | RDangle :: _ => UB
    end.
  Definition mo_has_more (m : mobj) : outcome bool :=
    match mo_heap m with _ :: _ => Ok true | [] => readers_have_more (mo_readers m) end.
  (** recordio.cc 260-275 ReadHeapDataFromReader. *)
  Definition mo_fill (m : mobj) (i : nat) : mobj * outcome unit :=
    match nth_error (mo_readers m) i with
    | None => (m, UB)
    | Some RClosed => (m, Err Internal)
    | Some RDangle => (m, UB)
    | Some (ROpen f) =>
        if f_has_more f then
          match read_record_at f with
          | (Ok r, f') => (MO (set_nth i (ROpen f') (mo_readers m)) ((r, i) :: mo_heap m), Ok tt)
          | (Err c, f') => (MO (set_nth i (ROpen f') (mo_readers m)) (mo_heap m), Err c)
          | (Crash, f') => (m, Crash) | (UB, _) => (m, UB) | (Diverge, _) => (m, Diverge)
          end
        else (m, Ok tt)
    end.
  Fixpoint mo_fill_all (m : mobj) (is : list nat) : mobj * outcome unit :=
    match is with
    | [] => (m, Ok tt)
    | i :: is => match mo_fill m i with (m', Ok _) => mo_fill_all m' is | x => x end
    end.
  (** recordio.cc 246-257 Read: the record is stored in *data before the refill that may fail; [Some record] is what the caller finds there. *)
  Definition mo_read (t : nat) (m : mobj) : mobj * option (bytes * nat) * outcome unit :=
    match (match mo_heap m with [] => mo_fill_all m (seq 0 (length (mo_readers m))) | _ :: _ => (m, Ok tt) end) with
    | (m1, Ok _) =>
        match heap_pop K key ltb t (mo_heap m1) with
        | None => (m1, None, UB)
        | Some (e, h) => let (m2, r) := mo_fill (MO (mo_readers m1) h) (snd e) in (m2, Some e, r)
        end
    | (m1, r) => (m1, None, r)
    end.

  (** Calls on one object. *)
  Inductive mop :=
  | MOpen (d : fs) (miss : bytes -> bool) (bad : nat -> bool) (names : list bytes)
  | MClose (bad : nat -> bool)
  | MHasMore
  | MRead1 (t : nat).
  Inductive mres := MUnit (r : outcome unit) | MBool (r : outcome bool) | MRec (e : option (bytes * nat)) (r : outcome unit).
  Definition mo_step (m : mobj) (op : mop) : mobj * mres :=
    match op with
    | MOpen d miss bad names => let (m', r) := mo_open m d miss bad names in (m', MUnit r)
    | MClose bad => let (m', r) := mo_close m bad in (m', MUnit r)
    | MHasMore => (m, MBool (mo_has_more m))
    | MRead1 t => let '(m', e, r) := mo_read t m in (m', MRec e r)
    end.
  Fixpoint mo_run (m : mobj) (ops : list mop) : mobj * list mres :=
    match ops with
    | [] => (m, [])
    | op :: ops => let (m', r) := mo_step m op in let (m'', rs) := mo_run m' ops in (m'', r :: rs)
    end.
End Multi.
