(** Model of the tool that generates dummy datasets (generate_dummy_data.cc). *)
From Verif Require Import Base M_RecordIO M_Shard M_Csv.

(** What the operating system does to the writing of one file: nothing wrong, the file cannot be opened for writing, or a
    write or the close fails, which leaves [rest] in the file.  Simplification: [rest] is arbitrary. *)
Inductive write_fault := WGood | WNoOpen | WBroken (rest : bytes).

(** std::ofstream::open of data_util.cc 233-234 and 267-268 succeeds; the empty name cannot be opened. *)
Definition can_open (name : bytes) (w : write_fault) : bool :=
  match name, w with [], _ | _, WNoOpen => false | _, _ => true end.
Definition writes_well (w : write_fault) : bool := match w with WGood => true | _ => false end.

(** The file system after a Write*DatasetToFile call (data_util.cc 230-294) on the named file with the given result: opening
    for writing truncates, so a file that could be opened holds the new content or what a failure left. *)
Definition after_write (d : fs) (name : bytes) (w : write_fault) (r : outcome bytes) : fs :=
  match r, w with
  | Ok content, _ => fs_set d name content
  | Err Internal, WBroken rest => fs_set d name rest
  | _, _ => d
  end.

(** The numbers printed by generate_dummy_data.cc 83-89. *)
Record report := Report { rp_server : Z; rp_client : Z; rp_inter : Z; rp_sum : Z }.

(** generate_dummy_data.cc 45-92 main with the given flags.  [Ok] is exit code 0 with the report printed, [Err] is exit code 1
    with the error printed on standard error.  The size printed for the server dataset is the flag client_data_size
    (line 84).  Simplification: flag parsing (absl::ParseCommandLine) is not modelled. *)
Definition dummy_main (rnd : db_random) (server_size client_size inter max_value : Z) (server_file client_file : bytes)
  (ws wc : write_fault) (d : fs) : fs * outcome report :=
  match generate_random_databases rnd server_size client_size inter max_value with
  | Ok (server, (client, vals), sum) =>
      let r1 := write_server_dataset (can_open server_file ws) (writes_well ws) server in
      let d1 := after_write d server_file ws r1 in
      match r1 with
      | Ok _ =>
          let r2 := write_client_dataset (can_open client_file wc) (writes_well wc) client vals in
          let d2 := after_write d1 client_file wc r2 in
          (d2, let* _ := r2 in Ok (Report client_size client_size inter sum))
      | Err e => (d1, Err e)
      | Crash => (d1, Crash) | UB => (d1, UB) | Diverge => (d1, Diverge)
      end
  | Err e => (d, Err e)
  | Crash => (d, Crash) | UB => (d, UB) | Diverge => (d, Diverge)
  end.
