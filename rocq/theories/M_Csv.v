(** CSV lines, dataset files, random databases and path joining.
    Models private_join_and_compute/data_util.cc and private_join_and_compute/util/file.cc. *)
From Verif Require Import Base M_Dec M_RecordIO M_BigNum M_Num.

Definition quote : byte := x22.
Definition comma : byte := x2c.
Definition newline : byte := x0a.

(** data_util.cc 131-133 EscapeForCsv: surround with quotes, double every quote inside. *)
Definition escape_body (s : bytes) : bytes := flat_map (fun b => if byte_eqb b quote then [quote; quote] else [b]) s.
Definition escape_for_csv (s : bytes) : bytes := quote :: escape_body s ++ [quote].

(** std::isspace on a plain (signed) char: undefined for bytes from 0x80 on (data_util.cc 74, 97). *)
Definition c_isspace (b : byte) : outcome bool := if bz b <? 128 then Ok (is_space b) else UB.

(** data_util.cc 74: skip leading white space (the delimiter ',' is not white space; the terminating NUL stops). *)
Fixpoint skip_space (s : bytes) : outcome bytes :=
  match s with
  | [] => Ok []
  | b :: s' => let* sp := c_isspace b in if sp then skip_space s' else Ok s
  end.

(** data_util.cc 79-86: the characters of a quoted value; returns the value and what follows the closing quote. *)
Fixpoint quoted (s : bytes) : bytes * bytes :=
  match s with
  | [] => ([], [])
  | b :: s' =>
      if byte_eqb b quote then
        match s' with
        | [] => ([], [])
        | b' :: s'' => if byte_eqb b' quote then let (v, r) := quoted s'' in (quote :: v, r) else ([], s')
        end
      else let (v, r) := quoted s' in (b :: v, r)
  end.

(** strchr(line, ','): the suffix from the first delimiter, or the end of the line (data_util.cc 89-90, 93-94). *)
Fixpoint from_comma (s : bytes) : bytes :=
  match s with [] => [] | b :: s' => if byte_eqb b comma then s else from_comma s' end.
Fixpoint upto_comma (s : bytes) : bytes :=
  match s with [] => [] | b :: s' => if byte_eqb b comma then [] else b :: upto_comma s' end.

(** data_util.cc 96-98: drop trailing white space, scanning from the end ([s] is the reversed field). *)
Definition trim_trailing (field : bytes) : outcome bytes :=
  let* r := skip_space (rev field) in Ok (rev r).

(** data_util.cc 72-99: one column from the cursor; returns its value and the rest of the line from the delimiter on.
    Simplification: the C code unescapes in place in the line buffer; here the value of a column is returned as soon as
    it is delimited (the write cursor never overtakes the read cursor). *)
Definition next_column (s : bytes) : outcome (bytes * bytes) :=
  let* s1 := skip_space s in
  match s1 with
  | b :: t => if byte_eqb b quote then let (v, r) := quoted t in Ok (v, from_comma r)
              else let* v := trim_trailing (upto_comma s1) in Ok (v, from_comma s1)
  | [] => Ok ([], [])
  end.

(** data_util.cc 66-112 SplitCSVLineWithDelimiter with delimiter ','.  [s] is the rest of the line from the cursor up
    to the terminating NUL. *)
Fixpoint split_from (fuel : nat) (s : bytes) : outcome (list bytes) :=
  match fuel with
  | O => Diverge
  | S k =>
      match s with
      | [] => Ok []
      | _ :: _ =>
          let* (v, r) := next_column s in
          match r with
          | [] => Ok [v]
          | [_] => Ok [v; []]
          | _ :: r' => let* vs := split_from k r' in Ok (v :: vs)
          end
      end
  end.

(** data_util.cc 114-126, 137-141 SplitCsvLine; strncpy (58-64) stops copying at the first NUL. *)
Definition split_csv_line (line : bytes) : outcome (list bytes) :=
  let s := c_str line in split_from (S (length s)) s.

(** data_util.cc 230-256 WriteServerDatasetToFile; [opens]/[io_ok] say whether open and the writes/close succeed. The
    result is the new content of the file. *)
Definition write_server_dataset (opens io_ok : bool) (ids : list bytes) : outcome bytes :=
  if negb opens then Err InvalidArgument
  else if negb io_ok then Err Internal
  else Ok (flat_map (fun id => escape_for_csv id ++ [newline]) ids).

(** data_util.cc 258-294 WriteClientDatasetToFile. *)
Definition write_client_dataset (opens io_ok : bool) (ids : list bytes) (vals : list Z) : outcome bytes :=
  if negb (length vals =? length ids)%nat then Err InvalidArgument
  else if negb opens then Err InvalidArgument
  else if negb io_ok then Err Internal
  else Ok (flat_map (fun iv => escape_for_csv (fst iv) ++ [comma] ++ dec (snd iv) ++ [newline]) (combine ids vals)).

(** std::getline loop: pieces ended by newlines; a last piece without newline counts if it is not empty. *)
Fixpoint getlines_acc (cur : bytes) (f : bytes) : list bytes :=
  match f with
  | [] => match cur with [] => [] | _ => [rev cur] end
  | b :: f' => if byte_eqb b newline then rev cur :: getlines_acc [] f' else getlines_acc (b :: cur) f'
  end.
Definition getlines (f : bytes) : list bytes := getlines_acc [] f.

(** data_util.cc 312-323: one line of a server file. *)
Definition parse_server_line (line : bytes) : outcome bytes :=
  let* cols := split_csv_line line in
  match cols with [c] => Ok c | _ => Err InvalidArgument end.

(** data_util.cc 296-334 ReadServerDatasetFromFile; [None] is a file that cannot be opened. *)
Definition read_server_dataset (f : option bytes) : outcome (list bytes) :=
  match f with
  | None => Err InvalidArgument
  | Some content => mapM parse_server_line (getlines content)
  end.

(** data_util.cc 354-376: one line of a client file. *)
Definition parse_client_line (line : bytes) : outcome (bytes * Z) :=
  let* cols := split_csv_line line in
  match cols with
  | [c; v] => match simple_atoi64 v with
              | Some n => if n <? 0 then Err InvalidArgument else Ok (c, n)
              | None => Err InvalidArgument
              end
  | _ => Err InvalidArgument
  end.

(** data_util.cc 336-388 ReadClientDatasetFromFile. *)
Definition read_client_dataset (f : option bytes) : outcome (list bytes * list Z) :=
  match f with
  | None => Err InvalidArgument
  | Some content => let* rows := mapM parse_client_line (getlines content) in Ok (map fst rows, map snd rows)
  end.

(** ** Random databases *)

(** data_util.cc 39-41. *)
Definition alphanumeric : bytes :=
  [x31;x32;x33;x34;x35;x36;x37;x38;x39;x30;x71;x77;x65;x72;x74;x79;x75;x69;x6f;x70;x61;x73;x64;x66;x67;x68;x6a;x6b;x6c;
   x7a;x78;x63;x76;x62;x6e;x6d;x51;x57;x45;x52;x54;x59;x55;x49;x4f;x50;x41;x53;x44;x46;x47;x48;x4a;x4b;x4c;x5a;x58;x43;
   x56;x42;x4e;x4d].

(** data_util.cc 45-53 GetRandomAlphaNumericString; [r i] is the i-th result of rand(). *)
Definition random_alnum (len : nat) (r : nat -> nat) (from : nat) : bytes :=
  map (fun i => nth (r i mod 62)%nat alphanumeric x00) (seq from len).

(** data_util.h kRandomIdentifierLengthBytes = 32. *)
Definition id_len : nat := 32.
(** [n] fresh identifiers, drawing from position [from] of the rand() stream. *)
Definition random_ids (n : nat) (r : nat -> nat) (from : nat) : list bytes :=
  map (fun i => random_alnum id_len r (from + i * id_len)) (seq 0 n).

(** std::shuffle: Fisher-Yates; [c i] is the raw random number used at position i. *)
Definition list_swap {A} (l : list A) (i j : nat) (d : A) : list A :=
  map (fun k => nth (if (k =? i)%nat then j else if (k =? j)%nat then i else k) l d) (seq 0 (length l)).
Definition shuffle {A} (c : nat -> nat) (l : list A) (d : A) : list A :=
  fold_left (fun l i => list_swap l i (c i mod S i)%nat d) (seq 1 (pred (length l))) l.

Definition mem_bytes (x : bytes) (l : list bytes) : bool := existsb (bytes_eqb x) l.

Definition int64_max : Z := 2 ^ 63 - 1.

(** data_util.cc 203-219: draw a value per client identifier and add up those in common; int64 overflow is undefined. *)
Fixpoint draw_values (server : list bytes) (bound : Z) (raws : nat -> Z) (i : nat) (client : list bytes) (sum : Z)
  : outcome (list Z * Z) :=
  match client with
  | [] => Ok ([], sum)
  | id :: rest =>
      let* v0 := generate_rand_less_than bound (raws i) in
      let* v := value_or_crash (to_int_value v0) in
      let* sum' := if mem_bytes id server then (if int64_max <? sum + v then UB else Ok (sum + v)) else Ok sum in
      let* rs := draw_values server bound raws (S i) rest sum' in
      Ok (v :: fst rs, snd rs)
  end.

(** The randomness used by GenerateRandomDatabases. *)
Record db_random := { r_rand : nat -> nat; r_shuffle_server : nat -> nat; r_shuffle_client : nat -> nat;
                      r_values : nat -> Z }.

(** data_util.cc 143-228 GenerateRandomDatabases. *)
Definition generate_random_databases (rnd : db_random) (server_size client_size inter max_value : Z)
  : outcome (list bytes * (list bytes * list Z) * Z) :=
  if (inter <? 0) || (server_size <? 0) || (client_size <? 0) || (max_value <? 0) then Err InvalidArgument
  else if (server_size <? inter) || (client_size <? inter) then Err InvalidArgument
  else if (0 <? max_value) && (Z.quot int64_max max_value <? inter) then Err InvalidArgument
  else
    let ni := Z.to_nat inter in
    let ns := (Z.to_nat server_size - ni)%nat in
    let nc := (Z.to_nat client_size - ni)%nat in
    let common := random_ids ni (r_rand rnd) 0 in
    let server := shuffle (r_shuffle_server rnd) (common ++ random_ids ns (r_rand rnd) (ni * id_len)) [] in
    let client := shuffle (r_shuffle_client rnd) (common ++ random_ids nc (r_rand rnd) ((ni + ns) * id_len)) [] in
    let* vs := draw_values server max_value (r_values rnd) 0 client 0 in
    Ok (server, (client, fst vs), snd vs).

(** ** Paths *)

Definition slash : byte := x2f.
Definition ends_slash (s : bytes) : bool := match rev s with b :: _ => byte_eqb b slash | [] => false end.

(** util/file.cc 55-68: one component. [out] is what has been written so far; the buffer holds [total] bytes and a
    write beyond it is undefined. *)
Definition join_step (total : nat) (st : outcome (bytes * bool)) (path : bytes) : outcome (bytes * bool) :=
  let* (out, trailing) := st in
  match path with
  | [] => Ok (out, trailing)
  | b :: rest =>
      let path1 := if byte_eqb b slash then (if trailing : bool then rest else path) else path in
      let out1 := if byte_eqb b slash then out
                  else if negb trailing && negb (length out =? 0)%nat then out ++ [slash] else out in
      let out2 := out1 ++ path1 in
      if (length out2 <=? total)%nat
      then match out2 with [] => UB | _ => Ok (out2, ends_slash out2) end
      else UB
  end.

(** util/file.cc 42-72 JoinPathImpl. *)
Definition join_path (paths : list bytes) : outcome bytes :=
  match paths with
  | [] => Ok []
  | _ =>
      let total := fold_left (fun n p => n + length p)%nat paths (length paths - 1)%nat in
      let* (out, _) := fold_left (join_step total) paths (Ok ([], false)) in
      Ok out
  end.
