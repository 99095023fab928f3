(** Model of the sharding writer, the multi-file sorted reader and the shard merger of util/recordio.cc.

    The file system maps names to contents.  Every file operation that the sharding writer performs may fail: the
    faults of one call are an argument of the call, so theorems quantify over all fault patterns. *)
From Verif Require Import Base M_RecordIO M_Dec.

Definition fs := bytes -> option bytes.
Definition fs_set (d : fs) (n c : bytes) : fs := fun m => if bytes_eqb m n then Some c else d m.
Definition fs_del (d : fs) (n : bytes) : fs := fun m => if bytes_eqb m n then None else d m.

(** State of the PosixFile inside the RecordWriter between two calls (file_posix.cc:33-67).
    [PDangling]: fclose failed, so f_ still points to the stream that fclose has released (lines 61-64 return before
    f_ is reset); every later Open is refused (line 42). *)
Inductive pfile := PClosed | PDangling.

(** What goes wrong while one shard is written out, if it is written out at all.
    [fl_open]: fopen fails.  [fl_write = Some (i, c)]: writing the i-th record fails (when there is an i-th record) and
    the file has content c afterwards.  [fl_close = Some c]: fclose fails and the file has content c afterwards. *)
Record fault := Fault { fl_open : bool; fl_write : option (nat * bytes); fl_close : option bytes }.
Definition no_fault : fault := Fault false None None.

(** File operations performed by a call and whether they succeeded. *)
Inductive event :=
| EvOpen (name : bytes) (ok : bool)
| EvWrite (name : bytes) (index : nat) (ok : bool)
| EvClose (name : bytes) (ok : bool).

(** int32_t arithmetic of bytes_written_ (conversion of the size_t sum back to int32_t). *)
Definition wrap32 (z : Z) : Z := (z + 2 ^ 31) mod 2 ^ 32 - 2 ^ 31.

(** recordio.cc:527-537, the fields of ShardingWriterImpl.  current_file_idx_ is unbounded here (the C++ int32_t would
    overflow after 2^31 shards). *)
Record sw := SW {
  sw_prefix : bytes; sw_fname : bytes; sw_cache : list bytes; sw_bytes : Z; sw_idx : Z;
  sw_shards : list bytes; sw_healthy : bool; sw_open : bool; sw_file : pfile }.

(** recordio.cc:420-432 constructor. *)
Definition sw_init : sw := SW [] [] [] 0 0 [] true false PClosed.

(** recordio.cc:408-410 GetFilename. *)
Definition shard_name (prefix : bytes) (idx : Z) : bytes := prefix ++ dec idx.

Section Keyed.
  Variable K : Type.
  Variable key : bytes -> K.            (* get_key *)
  Variable ltb : K -> K -> bool.        (* operator< of int64_t or std::string *)

  (** std::list::sort with key comparison: a stable sort (external), here insertion sort. *)
  Fixpoint insert (r : bytes) (l : list bytes) : list bytes :=
    match l with
    | [] => [r]
    | x :: l' => if ltb (key x) (key r) then x :: insert r l' else r :: l
    end.
  Definition sort_by (l : list bytes) : list bytes := fold_right insert [] l.

  Variable max_bytes : Z.

  (** recordio.cc:478-515 WriteCacheToFile.  All writes of the shard go to the open file; the file content is recorded
      once, after Close. *)
  Definition write_cache (s : sw) (d : fs) (fl : fault) : sw * fs * outcome unit * list event :=
    if negb (sw_healthy s) then (s, d, Err Internal, [])
    else match sw_cache s with
    | [] => (s, d, Ok tt, [])
    | _ :: _ =>
      let sorted := sort_by (sw_cache s) in
      let n := sw_fname s in
      let cannot_open :=
        match sw_file s with PDangling => true | PClosed => fl_open fl end in
      if cannot_open then
        (SW (sw_prefix s) n sorted (sw_bytes s) (sw_idx s) (sw_shards s) false (sw_open s) (sw_file s),
         d, Err Internal, [EvOpen n false])
      else
        (* lines 492-499: write the records in order, stop at the first failure *)
        let '(content, wrote, wevs) :=
          match fl_write fl with
          | Some (i, c) =>
              if (i <? length sorted)%nat
              then (c, false, map (fun j => EvWrite n j (negb (Nat.eqb j i))) (seq 0 (S i)))
              else (write_records sorted, true, map (fun j => EvWrite n j true) (seq 0 (length sorted)))
          | None => (write_records sorted, true, map (fun j => EvWrite n j true) (seq 0 (length sorted)))
          end in
        (* lines 500-508: close the file, even after a failed write *)
        let '(content', closed) :=
          match fl_close fl with Some c => (c, false) | None => (content, true) end in
        let status := if wrote && closed then Ok tt else Err Internal in
        (* lines 510-514 *)
        let s' := SW (sw_prefix s) (shard_name (sw_prefix s) (sw_idx s + 1)) [] 0 (sw_idx s + 1)
                     (sw_shards s ++ [n]) wrote (sw_open s) (if closed then PClosed else PDangling) in
        (s', fs_set d n content', status, EvOpen n true :: wevs ++ [EvClose n closed])
    end.

  (** recordio.cc:434-439 SetShardPrefix. *)
  Definition sw_set_prefix (s : sw) (p : bytes) : sw :=
    SW p (shard_name p (sw_idx s)) (sw_cache s) (sw_bytes s) (sw_idx s) (sw_shards s) (sw_healthy s) true (sw_file s).

  (** recordio.cc:461-475 Write. *)
  Definition sw_write (s : sw) (d : fs) (r : bytes) (fl : fault) : sw * fs * outcome unit * list event :=
    if negb (sw_open s) then (s, d, Err Internal, [])
    else if negb (sw_healthy s) then (s, d, Err Internal, [])
    else
      let push s := SW (sw_prefix s) (sw_fname s) (sw_cache s ++ [r])
                       (wrap32 (sw_bytes s + Z.of_nat (length r))) (sw_idx s)
                       (sw_shards s) (sw_healthy s) (sw_open s) (sw_file s) in
      if max_bytes <? sw_bytes s then
        let '(s1, d1, st, ev) := write_cache s d fl in
        match st with Ok _ => (push s1, d1, Ok tt, ev) | _ => (s1, d1, st, ev) end
      else (push s, d, Ok tt, []).

  (** recordio.cc:441-457 Close and 517-525 TryClose. *)
  Definition sw_close (s : sw) (d : fs) (fl : fault) : sw * fs * outcome (list bytes) * list event :=
    let reset f := SW [] [] [] 0 0 [] true false f in
    if negb (sw_open s) then (reset (sw_file s), d, Err Internal, [])
    else
      let '(s1, d1, st, ev) := write_cache s d fl in
      (reset (sw_file s1), d1, (let* _ := st in Ok (sw_shards s1)), ev).

  (** A history of calls.  The mutex (lines 435, 442, 462) makes every call atomic, so concurrent histories are
      sequences of calls too. *)
  Inductive sw_op := OpPrefix (p : bytes) | OpWrite (r : bytes) (fl : fault) | OpClose (fl : fault).
  Inductive sw_res := RUnit | RWrite (o : outcome unit) | RClose (o : outcome (list bytes)).

  Definition sw_step (sd : sw * fs) (op : sw_op) : (sw * fs) * sw_res * list event :=
    let '(s, d) := sd in
    match op with
    | OpPrefix p => ((sw_set_prefix s p, d), RUnit, [])
    | OpWrite r fl => let '(s1, d1, o, ev) := sw_write s d r fl in ((s1, d1), RWrite o, ev)
    | OpClose fl => let '(s1, d1, o, ev) := sw_close s d fl in ((s1, d1), RClose o, ev)
    end.

  Fixpoint sw_run (sd : sw * fs) (ops : list sw_op) : (sw * fs) * list (sw_op * sw_res * list event) :=
    match ops with
    | [] => (sd, [])
    | op :: ops' =>
        let '(sd1, r, ev) := sw_step sd op in
        let '(sd2, tr) := sw_run sd1 ops' in (sd2, (op, r, ev) :: tr)
    end.

  (** MultiSortedReaderImpl (recordio.cc:156-295).  A reader is the list of unread bytes of its file.  A heap entry is
      the record and the index of its reader; the key is recomputed from the record. *)
  Definition entry := (bytes * nat)%type.
  Definition ekey (e : entry) : K := key (fst e).

  (** std::priority_queue::top/pop returns some entry whose key is minimal; which one among ties is unspecified.
      [t] selects among the minimal entries, so theorems quantify over all tie resolutions. *)
  Definition is_min (h : list entry) (e : entry) : bool := forallb (fun e' => negb (ltb (ekey e') (ekey e))) h.
  Fixpoint pop_nth (p : entry -> bool) (t : nat) (h : list entry) : option (entry * list entry) :=
    match h with
    | [] => None
    | e :: h' =>
        if p e then
          match t with
          | O => Some (e, h')
          | S t' => match pop_nth p t' h' with
                    | Some (x, r) => Some (x, e :: r)
                    | None => Some (e, h')
                    end
          end
        else match pop_nth p t h' with Some (x, r) => Some (x, e :: r) | None => None end
    end.
  Definition heap_pop (t : nat) (h : list entry) : option (entry * list entry) := pop_nth (is_min h) t h.

  Record msr := MSR { ms_readers : list bytes; ms_heap : list entry }.

  Fixpoint set_nth {A} (n : nat) (x : A) (l : list A) : list A :=
    match l, n with
    | [], _ => []
    | _ :: l', O => x :: l'
    | y :: l', S n' => y :: set_nth n' x l'
    end.

  (** recordio.cc:260-275 ReadHeapDataFromReader. *)
  Definition fill_from (m : msr) (i : nat) : outcome msr :=
    match nth_error (ms_readers m) i with
    | None => UB                                   (* readers_[index] out of bounds: never happens *)
    | Some f =>
        if f_has_more f then
          let* (r, f') := read_record f in
          Ok (MSR (set_nth i f' (ms_readers m)) ((r, i) :: ms_heap m))
        else Ok m
    end.

  Fixpoint fill_all (m : msr) (is : list nat) : outcome msr :=
    match is with [] => Ok m | i :: is' => let* m' := fill_from m i in fill_all m' is' end.

  (** recordio.cc:222-242 HasMore (device errors not modelled). *)
  Definition ms_has_more (m : msr) : bool :=
    match ms_heap m with _ :: _ => true | [] => existsb f_has_more (ms_readers m) end.

  (** recordio.cc:246-257 Read: the record, its index and the new state.  top() of an empty heap is UB.  When the final
      refill fails Read returns that error; the model drops the record then, as the callers do. *)
  Definition ms_read (t : nat) (m : msr) : outcome (bytes * nat * msr) :=
    let* m1 := match ms_heap m with
               | [] => fill_all m (seq 0 (length (ms_readers m)))
               | _ :: _ => Ok m
               end in
    match heap_pop t (ms_heap m1) with
    | None => UB
    | Some ((r, i), h) =>
        let* m2 := fill_from (MSR (ms_readers m1) h) i in Ok (r, i, m2)
    end.

  (** while (HasMore()) Read(&record, &index); [ties n] resolves the n-th choice. *)
  Fixpoint ms_read_all (fuel : nat) (ties : nat -> nat) (m : msr) : outcome (list (bytes * nat)) :=
    match fuel with
    | O => Diverge
    | S k =>
        if ms_has_more m then
          let* (r, i, m') := ms_read (ties O) m in
          let* out := ms_read_all k (fun n => ties (S n)) m' in
          Ok ((r, i) :: out)
        else Ok []
    end.

  (** recordio.cc:175-199 Open: all files must exist. *)
  Definition ms_open (d : fs) (names : list bytes) : outcome msr :=
    let* fsx := mapM (fun n => match d n with Some c => Ok c | None => Err NotFound end) names in
    Ok (MSR fsx []).

  (** Enough iterations: every Read delivers one record and every record occupies at least one byte. *)
  Definition ms_fuel (m : msr) : nat := S (length (ms_heap m) + length (concat (ms_readers m))).

  (** recordio.cc:567-596 ShardMerger::Merge.  File operations other than opening a missing shard are assumed to
      succeed.  The output is opened (truncated) after the shards; if it is itself one of the shards the readers would see
      the truncation, which this model does not describe: [UB]. *)
  Definition merge (ties : nat -> nat) (d : fs) (shards : list bytes) (out : bytes) : fs * outcome unit :=
    let d0 := match shards with [] => fs_set d out [] | _ => d end in     (* lines 570-574 *)
    match ms_open d0 shards with
    | Ok m =>
        let d1 := fs_set d0 out [] in
        if existsb (bytes_eqb out) shards then (d1, UB)
        else match ms_read_all (ms_fuel m) ties m with
        | Ok rs => (fs_set d1 out (write_records (map fst rs)), Ok tt)
        | Err c => (d1, Err c)      (* the output keeps a partial content: not described *)
        | Crash => (d1, Crash) | UB => (d1, UB) | Diverge => (d1, Diverge)
        end
    | Err c => (d0, Err c)
    | Crash => (d0, Crash) | UB => (d0, UB) | Diverge => (d0, Diverge)
    end.

  (** recordio.cc:599-605 Delete; DeleteFile (file_posix.cc:165-174) fails if the file does not exist. *)
  Fixpoint delete_all (d : fs) (names : list bytes) : fs * outcome unit :=
    match names with
    | [] => (d, Ok tt)
    | n :: ns => match d n with None => (d, Err Internal) | Some _ => delete_all (fs_del d n) ns end
    end.
End Keyed.
