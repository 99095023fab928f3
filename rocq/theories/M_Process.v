(** Model of util/process_record_file_util.h ProcessRecordFile (lines 47-126). *)
From Verif Require Import Base M_RecordIO M_Dec M_Shard.

(** Lines 80-92: the half-open index range [start, end) of thread j, for a chunk of n records and t threads.
    t = 0 divides by zero. *)
Definition per_thread_size (n t : nat) : outcome nat :=
  match t with O => UB | _ => Ok ((n + t - 1) / t)%nat end.
Definition thread_range (pts n j : nat) : nat * nat := ((j * pts)%nat, Nat.min ((j + 1) * pts) n).
(** Lines 96-104: for (i = start; i < end; i++) chunk.at(i). *)
Definition slice {A} (l : list A) (r : nat * nat) : list A := firstn (snd r - fst r) (skipn (fst r) l).

(** Lines 71-76: read at most n records. *)
Fixpoint read_chunk (n : nat) (f : bytes) : outcome (list bytes * bytes) :=
  match n with
  | O => Ok ([], f)
  | S k =>
      if f_has_more f then
        let* (r, f1) := read_record f in
        let* (rs, f2) := read_chunk k f1 in Ok (r :: rs, f2)
      else Ok ([], f)
  end.

Section Process.
  Variable K : Type.
  Variable key : bytes -> K.               (* get_sorting_key_function *)
  Variable ltb : K -> K -> bool.
  Variable max_bytes : Z.                  (* shard size; 200MB in the code (line 61, recordio.h:230) *)
  (** ProtoUtils::ToString . record_transformer . ProtoUtils::FromString on one record.  It is called concurrently from
      several threads; as a function of the record alone its results do not depend on the schedule. *)
  Variable transform : bytes -> outcome bytes.
  Variable chunk_size threads : nat.

  Definition sd := (sw * fs)%type.

  (** Lines 112-114: write the records of one thread (no I/O faults). *)
  Fixpoint write_all (x : sd) (rs : list bytes) : sd * outcome unit :=
    match rs with
    | [] => (x, Ok tt)
    | r :: rs' =>
        let '(s1, d1, o, _) := sw_write K key ltb max_bytes (fst x) (snd x) r no_fault in
        match o with Ok _ => write_all (s1, d1) rs' | _ => ((s1, d1), o) end
    end.

  (** Lines 108-116: take the threads' results in thread order. *)
  Fixpoint write_threads (x : sd) (res : list (outcome (list bytes))) : sd * outcome unit :=
    match res with
    | [] => (x, Ok tt)
    | Ok rs :: res' =>
        match write_all x rs with
        | (x1, Ok _) => write_threads x1 res'
        | (x1, o) => (x1, o)
        end
    | Err c :: _ => (x, Err c)
    | Crash :: _ => (x, Crash) | UB :: _ => (x, UB) | Diverge :: _ => (x, Diverge)
    end.

  Definition thread_results (chunk : list bytes) (pts : nat) : list (outcome (list bytes)) :=
    map (fun j => mapM transform (slice chunk (thread_range pts (length chunk) j))) (seq 0 threads).

  (** Lines 67-117: the outer while loop. *)
  Fixpoint process_loop (fuel : nat) (out : bytes) (f : bytes) (x : sd) : sd * outcome unit :=
    match fuel with
    | O => (x, Diverge)
    | S k =>
        if f_has_more f then
          match read_chunk chunk_size f with
          | Ok (chunk, f') =>
              match per_thread_size (length chunk) threads with
              | Ok pts =>
                  match write_threads (sw_set_prefix (fst x) out, snd x) (thread_results chunk pts) with
                  | (x1, Ok _) => process_loop k out f' x1
                  | (x1, o) => (x1, o)
                  end
              | _ => (x, UB)
              end
          | Err c => (x, Err c)
          | Crash => (x, Crash) | UB => (x, UB) | Diverge => (x, Diverge)
          end
        else (x, Ok tt)
    end.

  (** Lines 56-125.  If a shard was flushed over the input file while it was still being read, what the reader sees is not
      described: [UB]. *)
  Definition process_record_file (ties : nat -> nat) (fuel : nat) (d : fs) (input output : bytes) : fs * outcome unit :=
    match d input with
    | None => (d, Err NotFound)
    | Some c =>
        match process_loop fuel output c (sw_set_prefix sw_init output, d) with
        | ((s1, d1), Ok _) =>
            if existsb (bytes_eqb input) (sw_shards s1) then (d1, UB)
            else
              let '(s2, d2, o, _) := sw_close K key ltb s1 d1 no_fault in
              match o with
              | Ok shards =>
                  match merge K key ltb ties d2 shards output with
                  | (d3, Ok _) => delete_all d3 shards
                  | (d3, e) => (d3, e)
                  end
              | Err e => (d2, Err e)
              | Crash => (d2, Crash) | UB => (d2, UB) | Diverge => (d2, Diverge)
              end
        | ((s1, d1), e) => (d1, e)
        end
    end.
End Process.
