(** Models ShardMerger of util/recordio.cc as an object that is used several times. *)
From Verif Require Import Base M_RecordIO M_Dec M_Shard M_File.

(** What the device does during one Merge: [md_miss n]: opening file n for reading fails although it exists; [md_out_open]: opening the output fails;
    [md_write i]: writing record i to the output fails.  Reading and closing do not fail on the device (M_ProcessFault.v has those for one Merge);
    a shard may be missing or damaged. *)
Record mdevice := MDevice { md_miss : bytes -> bool; md_out_open : bool; md_write : nat -> bool }.
Definition md_good : mdevice := MDevice (fun _ => false) false (fun _ => false).

(** recordio.h 261-262, the fields: the multi-file reader and the writer; the writer's file is open or not (file_posix.cc 33-36).  [Some n]: file n is
    open for writing. *)
Record merger := MG { mg_reader : mobj; mg_out : option bytes }.
(** recordio.cc 561-564, recordio.h 245-248: a new merger. *)
Definition mg_init : merger := MG mo_init None.

Section Merger.
  Variable K : Type.
  Variable key : bytes -> K.
  Variable ltb : K -> K -> bool.

  (** recordio.cc 587-590, the loop of Merge: the reader, the records written, and the result.  HasMore().value() aborts the process when HasMore
      failed.  [i] records have been written.  The record is in *data when Read returns, but is written only if Read succeeded. *)
  Fixpoint mg_loop (fuel : nat) (ties : nat -> nat) (dv : mdevice) (m : mobj) (i : nat) : mobj * list bytes * outcome unit :=
    match fuel with
    | O => (m, [], Diverge)
    | S k =>
        match mo_has_more m with
        | Ok false => (m, [], Ok tt)
        | Err _ => (m, [], Crash)
        | Ok true =>
            match mo_read K key ltb (ties O) m with
            | (m', Some e, Ok _) =>
                if md_write dv i then (m', [], Err Internal)
                else let '(m'', out, r) := mg_loop k (fun n => ties (S n)) dv m' (S i) in (m'', fst e :: out, r)
            | (m', None, Ok _) => (m', [], UB)
            | (m', _, Err c) => (m', [], Err c)
            | (m', _, Crash) => (m', [], Crash) | (m', _, UB) => (m', [], UB) | (m', _, Diverge) => (m', [], Diverge)
            end
        | Crash => (m, [], Crash) | UB => (m, [], UB) | Diverge => (m, [], Diverge)
        end
    end.
  (** Enough iterations for what the readers and the heap hold. *)
  Definition mo_fuel (m : mobj) : nat :=
    S (length (mo_heap m) + length (concat (map (fun r => match r with ROpen f => f | _ => [] end) (mo_readers m)))).

  (** recordio.cc 301-303 and file_posix.cc 41-54: opening the output. *)
  Definition mg_open_out (dv : mdevice) (g : merger) (out : bytes) (d : fs) : fs * outcome unit :=
    match mg_out g with
    | Some _ => (d, Err Internal)
    | None => if md_out_open dv then (d, Err NotFound) else (fs_set d out [], Ok tt)
    end.
  (** recordio.cc 567-596 Merge.  fopen with mode "w" empties the file at once; what was written so far is taken to be in the file when Merge returns.
      If the output is one of the shards the readers would see the truncation: [UB], as in M_Shard.merge. *)
  Definition mg_merge (ties : nat -> nat) (dv : mdevice) (g : merger) (d : fs) (shards : list bytes) (out : bytes) : merger * fs * outcome unit :=
    let '(d0, e) := match shards with [] => mg_open_out dv g out d | _ => (d, Ok tt) end in      (* lines 570-574: opened and closed again *)
    match e with
    | Ok _ =>
        let '(m1, r) := mo_open (mg_reader g) d0 (md_miss dv) (fun _ => false) shards in
        match r with
        | Ok _ =>
            let '(d1, o) := mg_open_out dv g out d0 in
            match o with
            | Ok _ =>
                if existsb (bytes_eqb out) shards then (MG m1 (Some out), d1, UB)
                else
                  let '(m2, rs, r2) := mg_loop (mo_fuel m1) ties dv m1 0 in
                  let d2 := fs_set d1 out (write_records rs) in
                  match r2 with
                  | Ok _ => let '(m3, r3) := mo_close m2 (fun _ => false) in (MG m3 None, d2, r3)      (* lines 591-593 *)
                  | _ => (MG m2 (Some out), d2, r2)
                  end
            | _ => (MG m1 (mg_out g), d1, o)
            end
        | _ => (MG m1 (mg_out g), d0, r)
        end
    | _ => (g, d0, e)
    end.

  (** A history of Merge calls on one object, each with the files as they are then; other programs may change the files between two calls.
      Nothing is defined after an abort or undefined behaviour. *)
  Record mcall := MCall { mc_ties : nat -> nat; mc_dv : mdevice; mc_fs : fs; mc_shards : list bytes; mc_out : bytes }.
  Fixpoint mg_run (g : merger) (cs : list mcall) : merger * list (outcome unit * fs) :=
    match cs with
    | [] => (g, [])
    | c :: cs =>
        let '(g', d', r) := mg_merge (mc_ties c) (mc_dv c) g (mc_fs c) (mc_shards c) (mc_out c) in
        match r with
        | Ok _ | Err _ => let (g'', rs) := mg_run g' cs in (g'', (r, d') :: rs)
        | _ => (g', [(r, d')])
        end
    end.
End Merger.
