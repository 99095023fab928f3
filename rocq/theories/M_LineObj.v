(** Models the line reader and the line writer of util/recordio.cc as objects over a PosixFile (M_File): any sequence of calls, any device faults,
    also calls made after one that failed. *)
From Verif Require Import Base M_RecordIO M_Shard M_File M_RecordObj.

Section Reader.
(** [fl i]: the i-th call meets a device fault. *)
Variable fl : nat -> bool.
(** recordio.cc 129-154 LineReader: HasMore and Read pass on the answers of the file. The answers are those of a record reader, with lines for records. *)
Definition lr_step (line_max : nat) (sc : pstate * nat) (op : rdop) : (pstate * nat) * outcome rdres :=
  let (s, c) := sc in
  match op with
  | RdHasMore =>
      match pf_has_more s (fl c) with
      | (s1, Ok (RBool b)) => ((s1, S c), Ok (AMore b))
      | (s1, Err e) => ((s1, S c), Err e)
      | (s1, _) => ((s1, S c), UB)
      end
  | RdRead =>
      match pf_read_line line_max s (fl c) with
      | (s1, Ok (RBytes l)) => ((s1, S c), Ok (ARecord l))
      | (s1, Err e) => ((s1, S c), Err e)
      | (s1, _) => ((s1, S c), UB)
      end
  end.
Fixpoint lr_run (line_max : nat) (sc : pstate * nat) (ops : list rdop) : list (outcome rdres) :=
  match ops with
  | [] => []
  | op :: ops' => let (sc', r) := lr_step line_max sc op in match r with UB => [UB] | _ => r :: lr_run line_max sc' ops' end
  end.
End Reader.

(** A line to be written, with the faults that its text and its newline meet. *)
Record lwrite := LW { lw_line : bytes; lw_text_fault : option nat; lw_newline_fault : option nat }.
(** recordio.cc 343-346 LineWriterImpl::Write: the text, and if that succeeded the newline. (The text is passed as a C string with its length; the model
    takes it to be followed by a NUL byte somewhere.) *)
Definition lw_write (s : pstate) (w : lwrite) : pstate * outcome pres :=
  match pf_write s (lw_line w) (length (lw_line w)) (lw_text_fault w) with
  | (s1, Ok _) => pf_write s1 [x0a] 1 (lw_newline_fault w)
  | (s1, r) => (s1, r)
  end.
Fixpoint lw_writes (s : pstate) (ws : list lwrite) : pstate * list (outcome pres) :=
  match ws with
  | [] => (s, [])
  | w :: ws' => let (s1, r) := lw_write s w in let (s2, rs) := lw_writes s1 ws' in (s2, r :: rs)
  end.
(** Open, the writes, Close: the statuses of the writes, that of Close and the file system afterwards. *)
Definition lw_session (d : fs) (name : bytes) (ws : list lwrite) : list (outcome pres) * outcome pres * fs :=
  match pf_open PNull d name MWrite false with
  | (s, d1, _) => let (s1, rs) := lw_writes s ws in let '(_, d2, r) := pf_close s1 d1 None in (rs, r, d2)
  end.
