(** Models the record reader and the record writer of util/recordio.cc as objects over a PosixFile (M_File): any sequence of calls, any device faults,
    also calls made after one that failed. *)
From Verif Require Import Base M_RecordIO M_Shard M_File.

Section Reader.
(** [fl i]: the i-th access to the device fails, after this many bytes. *)
Variable fl : nat -> option nat.
Definition strikes (c : nat) : bool := match fl c with Some _ => true | None => false end.
(** recordio.cc 47-76, the loop of ExtractVarint32: at most [n] more bytes; [acc] are the bytes read so far. The flag says that the last byte ended the
    number; the third component counts the accesses. *)
Fixpoint rr_varint (n : nat) (s : pstate) (c : nat) (acc : bytes) : pstate * nat * outcome (bytes * bool) :=
  match n with
  | O => (s, c, Err InvalidArgument)
  | S k =>
      match pf_has_more s (strikes c) with
      | (s1, Ok (RBool false)) => (s1, S c, Ok (acc, false))
      | (s1, Ok (RBool true)) =>
          match pf_read s1 1 (fl (S c)) with
          | (s2, Ok (RBytes [b])) => if bz b <? 128 then (s2, S (S c), Ok (acc ++ [b], true)) else rr_varint k s2 (S (S c)) (acc ++ [b])
          | (s2, Err e) => (s2, S (S c), Err e)
          | (s2, _) => (s2, S (S c), UB)
          end
      | (s1, Err e) => (s1, S c, Err e)
      | (s1, _) => (s1, S c, UB)
      end
  end.
(** recordio.cc 104-122 Read. A number that does not end leaves the record size uninitialised (lines 78-80). *)
Definition rr_read (s : pstate) (c : nat) : pstate * nat * outcome bytes :=
  match rr_varint 5 s c [] with
  | (s1, c1, Ok (h, true)) =>
      match pf_read s1 (Z.to_nat (read_varint32 h)) (fl c1) with
      | (s2, Ok (RBytes r)) => (s2, S c1, Ok r)
      | (s2, Err e) => (s2, S c1, Err e)
      | (s2, _) => (s2, S c1, UB)
      end
  | (s1, c1, Ok (_, false)) => (s1, c1, UB)
  | (s1, c1, Err e) => (s1, c1, Err e)
  | (s1, c1, Crash) => (s1, c1, Crash) | (s1, c1, UB) => (s1, c1, UB) | (s1, c1, Diverge) => (s1, c1, Diverge)
  end.
Inductive rdop := RdHasMore | RdRead.
Inductive rdres := AMore (b : bool) | ARecord (r : bytes).
(** recordio.cc 96-102 HasMore, 104-122 Read. *)
Definition rr_step (sc : pstate * nat) (op : rdop) : (pstate * nat) * outcome rdres :=
  let (s, c) := sc in
  match op with
  | RdHasMore =>
      match pf_has_more s (strikes c) with
      | (s1, Ok (RBool b)) => ((s1, S c), Ok (AMore b))
      | (s1, Err e) => ((s1, S c), Err e)
      | (s1, _) => ((s1, S c), UB)
      end
  | RdRead => let '(s1, c1, r) := rr_read s c in ((s1, c1), let* x := r in Ok (ARecord x))
  end.
(** Nothing is defined after undefined behaviour. *)
Fixpoint rr_run (sc : pstate * nat) (ops : list rdop) : list (outcome rdres) :=
  match ops with
  | [] => []
  | op :: ops' => let (sc', r) := rr_step sc op in match r with UB => [UB] | _ => r :: rr_run sc' ops' end
  end.
End Reader.
(** The reader that has just opened a file with these bytes (recordio.cc 90-92). *)
Definition rr_opened (name f : bytes) : pstate * nat := (PRead name f false false, O).

(** recordio.cc 298-330 RecordWriterImpl: Open, one Write per record with the fault it meets, Close. *)
Definition rw_op (w : bytes * option nat) : pop := OpWriteF (encode_record (fst w)) (length (encode_record (fst w))) (snd w).
Definition rw_session (name : bytes) (ws : list (bytes * option nat)) : list pop := OpOpen name MWrite false :: map rw_op ws ++ [OpCloseF None].
