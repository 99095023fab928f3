(** Models the free functions on files and directories of util/file_posix.cc 158-217 (RenameFile, DeleteFile, FileExists, RecursivelyCreateDir,
    RecursivelyDeleteDir) over a tree of directories. External: the system calls and std::filesystem, whose behaviour is the one of POSIX and
    libstdc++. Not modelled: links, the entries "." and "..", other processes, and names with a NUL before
    the last component in the functions on directories. Relative names start at the root. *)
From Verif Require Import Base.

(** A name is a list of components; the root is the empty list. *)
Definition path := list bytes.
Inductive kind := KFile (content : bytes) | KDir.
(** The entries of the file system, the root excepted. *)
Definition tree := list (path * kind).

Definition path_eqb (p q : path) : bool := if list_eq_dec (list_eq_dec Byte.byte_eq_dec) p q then true else false.
Fixpoint lookup_in (t : tree) (p : path) : option kind :=
  match t with [] => None | (q, k) :: rest => if path_eqb p q then Some k else lookup_in rest p end.
Definition lookup (t : tree) (p : path) : option kind := match p with [] => Some KDir | _ => lookup_in t p end.
Fixpoint is_prefix (p q : path) : bool :=
  match p, q with
  | [], _ => true
  | a :: p', b :: q' => bytes_eqb a b && is_prefix p' q'
  | _ :: _, [] => false
  end.
Definition has_entries (t : tree) (p : path) : bool := existsb (fun e => is_prefix p (fst e) && negb (path_eqb p (fst e))) t.
Definition without (t : tree) (p : path) : tree := filter (fun e => negb (path_eqb p (fst e))) t.

(** The components of a string: what is between slashes, empty components dropped. *)
Fixpoint split_slash (s cur : bytes) : path :=
  match s with
  | [] => match cur with [] => [] | _ => [cur] end
  | b :: rest => if byte_eqb b x2f then match cur with [] => split_slash rest [] | _ => cur :: split_slash rest [] end else split_slash rest (cur ++ [b])
  end.
Definition components (s : bytes) : path := split_slash s [].
Definition trailing_slash (s : bytes) : bool := byte_eqb (last s x00) x2f.
(** stat: the empty string names nothing, and a file cannot be named with a slash at the end. *)
Definition stat (t : tree) (s : bytes) : option kind :=
  match s with
  | [] => None
  | _ => match lookup t (components s) with Some (KFile c) => if trailing_slash s then None else Some (KFile c) | r => r end
  end.

(** absl::string_view: the memory from its pointer to the end of the object it points into, and the length of the view. *)
Record view := { v_mem : bytes; v_len : nat }.
Definition v_string (v : view) : bytes := firstn (v_len v) (v_mem v).
(** What a C function reads from data(): up to the first NUL, None when the object has none. *)
Fixpoint c_string (mem : bytes) : option bytes :=
  match mem with
  | [] => None
  | b :: rest => if byte_eqb b x00 then Some [] else option_map (cons b) (c_string rest)
  end.
(** What the system reads from c_str() of a std::string, which a NUL follows. *)
Fixpoint os_name (s : bytes) : bytes := match s with [] => [] | b :: rest => if byte_eqb b x00 then [] else b :: os_name rest end.
Definition on_c_string {A} (v : view) (other : A * outcome unit) (f : bytes -> A * outcome unit) : A * outcome unit :=
  match c_string (v_mem v) with Some s => f s | None => other end.

(** rename(2), [None] when it fails: the new name may exist as an entry of the same kind, a directory only when it is empty. Everything under
    a directory moves with it. *)
Definition moved (src dst q : path) : path := if is_prefix src q then dst ++ skipn (length src) q else q.
Definition os_rename (t : tree) (a b : bytes) : option tree :=
  let src := components a in
  let dst := components b in
  let parent := lookup t (removelast dst) in
  match stat t a, stat t b, parent with
  | Some k, there, Some KDir =>
      let allowed :=
        match src, dst, k, there with
        | [], _, _, _ | _, [], _, _ => false
        | _, _, KFile _, None => match lookup t dst with None => negb (trailing_slash b) | Some _ => false end
        | _, _, KFile _, Some (KFile _) => true
        | _, _, KFile _, Some KDir => false
        | _, _, KDir, None => match lookup t dst with None => negb (is_prefix src dst) | Some _ => false end
        | _, _, KDir, Some (KFile _) => false
        | _, _, KDir, Some KDir => path_eqb src dst || (negb (is_prefix src dst) && negb (has_entries t dst))
        end in
      if allowed then if path_eqb src dst then Some t else Some (map (fun e => (moved src dst (fst e), snd e)) (without t dst)) else None
  | _, _, _ => None
  end.
(** file_posix.cc 158-164 RenameFile; [fault] is a failure of the device or a missing permission. *)
Definition rename_file (t : tree) (from to : view) (fault : bool) : tree * outcome unit :=
  on_c_string from (t, UB) (fun a =>
  on_c_string to (t, UB) (fun b =>
  if fault then (t, Err Internal) else match os_rename t a b with Some t' => (t', Ok tt) | None => (t, Err Internal) end)).

(** remove(3): files and empty directories. *)
Definition os_remove (t : tree) (s : bytes) : option tree :=
  match stat t s, components s with
  | None, _ | _, [] => None
  | Some (KFile _), p => Some (without t p)
  | Some KDir, p => if has_entries t p then None else Some (without t p)
  end.
(** file_posix.cc 166-172 DeleteFile. *)
Definition delete_file (t : tree) (v : view) (fault : bool) : tree * outcome unit :=
  on_c_string v (t, UB) (fun s => if fault then (t, Err Internal) else match os_remove t s with Some t' => (t', Ok tt) | None => (t, Err Internal) end).

(** file_posix.cc 177-183 FileExists: std::filesystem::exists without error_code throws when the state of the file cannot be read. *)
Definition file_exists (t : tree) (v : view) (fault : bool) : outcome unit :=
  if fault then Crash else match stat t (os_name (v_string v)) with Some _ => Ok tt | None => Err NotFound end.

(** libstdc++ create_directories: the prefixes of [p] of which the parents have to be made, the shortest first; None when a file is in the
    way. [n] prefixes are left. *)
Fixpoint first_missing (t : tree) (p : path) (n : nat) : option nat :=
  match n with
  | O => Some O
  | S k => match lookup t (firstn n p) with
           | Some KDir => Some n
           | Some (KFile _) => None
           | None => first_missing t p k
           end
  end.
(** mkdir of the prefixes of length n + 1, n + 2, ...; [count] of them; the calls are numbered for their faults. Returns whether the last
    call made a directory. *)
Fixpoint make_dirs (fault : nat -> bool) (t : tree) (p : path) (n count i : nat) (made : bool) : tree * outcome bool :=
  match count with
  | O => (t, Ok made)
  | S k =>
      let q := firstn (S n) p in
      if fault i then (t, Err Internal)
      else match lookup t q with
           | Some KDir => make_dirs fault t p (S n) k (S i) false
           | Some (KFile _) => (t, Err Internal)
           | None => make_dirs fault ((q, KDir) :: t) p (S n) k (S i) true
           end
  end.
(** file_posix.cc 188-203 RecursivelyCreateDir; libstdc++ refuses the empty name and more than 1000 directories to be made. [stat_fault]: the
    state of the directory cannot be read. *)
Definition create_dir (t : tree) (v : view) (stat_fault : bool) (fault : nat -> bool) : tree * outcome unit :=
  let s := os_name (v_string v) in
  let p := components s in
  if stat_fault then (t, Err Internal)
  else match v_string v with
  | [] => (t, Err Internal)
  | _ =>
  match stat t s with
  | Some KDir => (t, Err AlreadyExists)
  | Some (KFile _) => (t, Err Internal)
  | None =>
      match first_missing t p (pred (length p)) with
      | None => (t, Err Internal)
      | Some n =>
          if Nat.ltb 1000 (length p - n) then (t, Err Internal)
          else match make_dirs fault t p n (length p - n) 0 false with
               | (t', Ok true) => (t', Ok tt)
               | (t', Ok false) => (t', Err AlreadyExists)
               | (t', Err c) => (t', Err c) | (t', Crash) => (t', Crash) | (t', UB) => (t', UB) | (t', Diverge) => (t', Diverge)
               end
      end
  end
  end.

(** remove_all: the entries in the order in which the traversal meets them, each removed when it has no entries of its own; the number of the
    removal that fails, if any. The root cannot be removed. *)
Fixpoint remove_entries (t : tree) (order : list path) (fault : option nat) : tree * outcome unit :=
  match order with
  | [] => (t, Ok tt)
  | q :: rest =>
      match fault with
      | Some O => (t, Err Internal)
      | _ => match q with
             | [] => (t, Err Internal)
             | _ => if has_entries t q then (t, Err Internal) else remove_entries (without t q) rest (option_map pred fault)
             end
      end
  end.
(** file_posix.cc 205-215 RecursivelyDeleteDir. *)
Definition delete_dir (t : tree) (v : view) (order : list path) (fault : option nat) : tree * outcome unit :=
  match stat t (os_name (v_string v)) with
  | None => match fault with Some O => (t, Err Internal) | _ => (t, Ok tt) end
  | Some _ => remove_entries t order fault
  end.

(** A program that calls these functions. *)
Inductive dcall :=
  | CRename (from to : view) (fault : bool)
  | CDelete (v : view) (fault : bool)
  | CExists (v : view) (fault : bool)
  | CCreateDir (v : view) (stat_fault : bool) (fault : nat -> bool)
  | CDeleteDir (v : view) (order : list path) (fault : option nat).
Definition dstep (t : tree) (c : dcall) : tree * outcome unit :=
  match c with
  | CRename a b f => rename_file t a b f
  | CDelete v f => delete_file t v f
  | CExists v f => (t, file_exists t v f)
  | CCreateDir v sf f => create_dir t v sf f
  | CDeleteDir v o f => delete_dir t v o f
  end.
Fixpoint drun (t : tree) (cs : list dcall) : tree := match cs with [] => t | c :: rest => drun (fst (dstep t c)) rest end.
