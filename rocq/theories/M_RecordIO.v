(** Model of util/file_posix.cc (reading/writing one open FILE) and the record/line readers and writers
    of util/recordio.cc.

    A FILE opened for reading is the list of bytes not yet consumed; a FILE opened for writing is the list of
    bytes written so far.  Read errors of the device (ferror) are not modelled here; write/open/close
    failures are modelled in M_Shard.v. *)
From Verif Require Import Base.

(** file_posix.cc:69-92 HasMore: peeks one character (getc/ungetc); false exactly at end of file. *)
Definition f_has_more (f : bytes) : bool := match f with [] => false | _ :: _ => true end.

(** file_posix.cc:94-105 Read(length): a short read is an INTERNAL error. The stdio stream position after a
    short read is the end of the file; the model drops the stream, as every caller stops on the error. *)
Definition f_read (n : nat) (f : bytes) : outcome (bytes * bytes) :=
  if (n <=? length f)%nat then Ok (firstn n f, skipn n f) else Err Internal.

(** google::protobuf::io::CodedOutputStream::WriteVarint32 (external): base-128 little endian groups. *)
Fixpoint varint_groups (fuel : nat) (v : Z) : bytes :=
  match fuel with
  | O => []
  | S k => if v <? 128 then [zb v] else zb (v mod 128 + 128) :: varint_groups k (v / 128)
  end.
Definition write_varint32 (v : Z) : bytes := varint_groups 5 v.

(** google::protobuf::io::CodedInputStream::ReadVarint32 (external) on a complete varint: the low 32 bits of
    the base-128 value. *)
Fixpoint varint_value (s : bytes) : Z :=
  match s with [] => 0 | b :: s' => bz b mod 128 + 128 * varint_value s' end.
Definition read_varint32 (s : bytes) : Z := varint_value s mod 2 ^ 32.

(** recordio.cc:54-74: the byte-wise loop of ExtractVarint32.  [n] is kMaxVarint32Size - current_byte.
    Result: bytes read, whether they end in a terminating byte, and the rest of the file. *)
Fixpoint varint_loop (n : nat) (f : bytes) : outcome (bytes * bool * bytes) :=
  match n with
  | O => Err InvalidArgument                       (* lines 67-72 *)
  | S k =>
      match f with
      | [] => Ok ([], false, [])                   (* has_more false: loop exits, line 54 *)
      | b :: f' =>
          if bz b <? 128 then Ok ([b], true, f')   (* top bit clear: break, lines 61-63 *)
          else let* (s, t, r) := varint_loop k f' in Ok (b :: s, t, r)
      end
  end.

(** recordio.cc:47-83 ExtractVarint32.  If the file ends before a terminating byte, ReadVarint32 fails, its
    result is ignored and the uninitialised variable [result] is returned: [UB]. *)
Definition extract_varint32 (f : bytes) : outcome (Z * bytes) :=
  let* (s, t, r) := varint_loop 5 f in
  if t : bool then Ok (read_varint32 s, r) else UB.

(** recordio.cc:104-122 RecordReaderImpl::Read. *)
Definition read_record (f : bytes) : outcome (bytes * bytes) :=
  let* (n, f1) := extract_varint32 f in
  f_read (Z.to_nat n) f1.

(** recordio.cc:308-326 RecordWriterImpl::Write: bytes appended to the file.  raw_data.size() is converted
    to uint32_t for the length prefix. *)
Definition encode_record (r : bytes) : bytes :=
  write_varint32 (Z.of_nat (length r) mod 2 ^ 32) ++ r.

(** Contents of a file after Write-ing the records one by one. *)
Definition write_records (rs : list bytes) : bytes := flat_map encode_record rs.

(** The reading loop used by all clients of RecordReader:
    while (reader->HasMore()) reader->Read(&r).  Returns the records read and how the loop ended. *)
Fixpoint read_all (fuel : nat) (f : bytes) : list bytes * outcome unit :=
  match fuel with
  | O => ([], Diverge)
  | S k =>
      if f_has_more f then
        match read_record f with
        | Ok (r, f') => let '(rs, e) := read_all k f' in (r :: rs, e)
        | Err c => ([], Err c)
        | Crash => ([], Crash)
        | UB => ([], UB)
        | Diverge => ([], Diverge)
        end
      else ([], Ok tt)
  end.
(** Every successful Read consumes at least one byte, so this fuel is enough (L_RecordIO). *)
Definition read_records (f : bytes) : list bytes * outcome unit := read_all (S (length f)) f.

(** fgets(buffer, size, f): at most size-1 bytes, up to and including the first newline. *)
Fixpoint fgets (n : nat) (f : bytes) : bytes * bytes :=
  match n, f with
  | S k, b :: f' =>
      if byte_eqb b x0a then ([b], f') else let '(s, r) := fgets k f' in (b :: s, r)
  | _, _ => ([], f)
  end.

(** strlen(buffer_): the C string ends at the first NUL byte. *)
Fixpoint c_str (s : bytes) : bytes :=
  match s with [] => [] | b :: s' => if byte_eqb b x00 then [] else b :: c_str s' end.

(** file_posix.cc:119-130: drop a trailing newline and a carriage return before it. *)
Definition chomp (s : bytes) : bytes :=
  match rev s with
  | nl :: rest =>
      if byte_eqb nl x0a then
        match rest with
        | cr :: rest' => if byte_eqb cr x0d then rev rest' else rev rest
        | [] => []
        end
      else s
  | [] => []
  end.

(** file_posix.cc:107-132 ReadLine, with the platform's LINE_MAX as a parameter. *)
Definition read_line (line_max : nat) (f : bytes) : outcome (bytes * bytes) :=
  match f with
  | [] => Err Internal                             (* fgets returns nullptr at end of file *)
  | _ => let '(buf, rest) := fgets (line_max - 1) f in Ok (chomp (c_str buf), rest)
  end.

(** recordio.cc:343-346 LineWriterImpl::Write. *)
Definition write_lines (ls : list bytes) : bytes := flat_map (fun l => l ++ [x0a]) ls.

(** while (reader->HasMore()) reader->Read(&line) with a LineReader (recordio.cc:129-154). *)
Fixpoint read_lines_loop (line_max fuel : nat) (f : bytes) : list bytes * outcome unit :=
  match fuel with
  | O => ([], Diverge)
  | S k =>
      if f_has_more f then
        match read_line line_max f with
        | Ok (l, f') => let '(ls, e) := read_lines_loop line_max k f' in (l :: ls, e)
        | Err c => ([], Err c)
        | Crash => ([], Crash)
        | UB => ([], UB)
        | Diverge => ([], Diverge)
        end
      else ([], Ok tt)
  end.

(** limits.h on Linux: LINE_MAX = _POSIX2_LINE_MAX = 2048. *)
Definition LINE_MAX : nat := Z.to_nat 2048.
Definition read_lines (f : bytes) : list bytes * outcome unit := read_lines_loop LINE_MAX (S (length f)) f.
