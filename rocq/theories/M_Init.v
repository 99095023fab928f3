(** Models crypto/openssl_init.cc (the part for libraries other than BoringSSL) and the order of events in the constructor of Context
    (crypto/context.cc 35-46) when several threads run.  External: the library itself.  It calls the locking callback, if one is installed, with
    CRYPTO_LOCK before and without it after each of its critical sections, which are not nested; it has [num_locks] locks (CRYPTO_num_locks()).
    The static object [openssl_init] is taken to be constructed before any thread runs (openssl_init.cc 37-41 and 70).  Loads and stores of one
    variable are atomic; the destructor (lines 58-64), which runs at exit, is left out. *)
From Verif Require Import Base.

(** What a thread does with the project's classes: construct a Context, or run library code with a critical section that lock [n] guards. *)
Inductive request := NewContext | UseLock (n : Z).

(** The instructions of a thread.  [IOnce] is the call_once of line 97; [ILoad] is line 88 with 43-51 LoadErrStrings, [IIds] line 54 and [ILocks]
    line 55 of InitLocking, [IFinish] the return of OpenSSLInitHelper; [IMade] is the return of the constructor of Context. *)
Inductive instr := IAcquire (n : Z) | IRelease (n : Z) | IOnce | ILoad | IIds | ILocks | IFinish | IMade.

(** std::once_flag: not called yet, being called by a thread, called. *)
Inductive once := NotCalled | CalledBy (t : nat) | Called.

Record shared := { sh_flag : once; sh_loads : nat; sh_ids : bool; sh_locks : bool; sh_owner : Z -> option nat; sh_contexts : nat;
                   sh_fault : outcome unit; sh_threads : nat -> list instr }.

Definition set_thread (f : nat -> list instr) (t : nat) (r : list instr) : nat -> list instr := fun u => if Nat.eqb u t then r else f u.
Definition set_owner (f : Z -> option nat) (n : Z) (o : option nat) : Z -> option nat := fun m => if m =? n then o else f m.

(** The constructor of Context: the members of lines 36-41 are made before the body, and use the locks [early]; then line 42. *)
Definition section (n : Z) : list instr := [IAcquire n; IRelease n].
Definition code (early : list Z) (r : request) : list instr :=
  match r with NewContext => flat_map section early ++ [IOnce; IMade] | UseLock n => section n end.
Definition compile (early : list Z) (rs : list request) : list instr := flat_map (code early) rs.

Definition shared_init (early : list Z) (programs : list (list request)) : shared :=
  {| sh_flag := NotCalled; sh_loads := 0; sh_ids := false; sh_locks := false; sh_owner := fun _ => None; sh_contexts := 0;
     sh_fault := Ok tt; sh_threads := fun t => compile early (nth t programs []) |}.

(** Lines 77-85 CryptoLockingCallback: CHECK_GE(n, 0), the mutex of the vector (an index beyond its end is undefined), lock or unlock.  Locking
    waits while a thread has the mutex; unlocking a mutex of another thread, or a free one, is undefined. *)
Inductive effect := Waits | Faults (o : outcome unit) | Owns (o : option nat).
Definition lock_callback (num_locks : Z) (owner : option nat) (lock : bool) (n : Z) (t : nat) : effect :=
  if n <? 0 then Faults Crash
  else if num_locks <=? n then Faults UB
  else if lock then match owner with None => Owns (Some t) | Some _ => Waits end
  else match owner with Some u => if Nat.eqb u t then Owns None else Faults UB | None => Faults UB end.

Section Run.
Variable num_locks : Z.

(** One instruction of thread [t]; [None] when the thread waits or has nothing left to do.  Nothing runs after a fault. *)
Definition istep (s : shared) (t : nat) : option shared :=
  match sh_fault s with
  | Ok _ =>
    let next r := {| sh_flag := sh_flag s; sh_loads := sh_loads s; sh_ids := sh_ids s; sh_locks := sh_locks s; sh_owner := sh_owner s;
                     sh_contexts := sh_contexts s; sh_fault := Ok tt; sh_threads := set_thread (sh_threads s) t r |} in
    let locking lock n r :=
      if sh_locks s then
        match lock_callback num_locks (sh_owner s n) lock n t with
        | Waits => None
        | Faults o => Some {| sh_flag := sh_flag s; sh_loads := sh_loads s; sh_ids := sh_ids s; sh_locks := true; sh_owner := sh_owner s;
                              sh_contexts := sh_contexts s; sh_fault := o; sh_threads := sh_threads s |}
        | Owns o => Some {| sh_flag := sh_flag s; sh_loads := sh_loads s; sh_ids := sh_ids s; sh_locks := true;
                            sh_owner := set_owner (sh_owner s) n o; sh_contexts := sh_contexts s; sh_fault := Ok tt;
                            sh_threads := set_thread (sh_threads s) t r |}
        end
      else Some (next r) in
    match sh_threads s t with
    | [] => None
    | IAcquire n :: r => locking true n r
    | IRelease n :: r => locking false n r
    | IOnce :: r =>
        match sh_flag s with
        | NotCalled => Some {| sh_flag := CalledBy t; sh_loads := sh_loads s; sh_ids := sh_ids s; sh_locks := sh_locks s; sh_owner := sh_owner s;
                               sh_contexts := sh_contexts s; sh_fault := Ok tt;
                               sh_threads := set_thread (sh_threads s) t (ILoad :: IIds :: ILocks :: IFinish :: r) |}
        | CalledBy _ => None
        | Called => Some (next r)
        end
    | ILoad :: r => Some {| sh_flag := sh_flag s; sh_loads := S (sh_loads s); sh_ids := sh_ids s; sh_locks := sh_locks s; sh_owner := sh_owner s;
                            sh_contexts := sh_contexts s; sh_fault := Ok tt; sh_threads := set_thread (sh_threads s) t r |}
    | IIds :: r => Some {| sh_flag := sh_flag s; sh_loads := sh_loads s; sh_ids := true; sh_locks := sh_locks s; sh_owner := sh_owner s;
                           sh_contexts := sh_contexts s; sh_fault := Ok tt; sh_threads := set_thread (sh_threads s) t r |}
    | ILocks :: r => Some {| sh_flag := sh_flag s; sh_loads := sh_loads s; sh_ids := sh_ids s; sh_locks := true; sh_owner := sh_owner s;
                             sh_contexts := sh_contexts s; sh_fault := Ok tt; sh_threads := set_thread (sh_threads s) t r |}
    | IFinish :: r => Some {| sh_flag := Called; sh_loads := sh_loads s; sh_ids := sh_ids s; sh_locks := sh_locks s; sh_owner := sh_owner s;
                              sh_contexts := sh_contexts s; sh_fault := Ok tt; sh_threads := set_thread (sh_threads s) t r |}
    | IMade :: r => Some {| sh_flag := sh_flag s; sh_loads := sh_loads s; sh_ids := sh_ids s; sh_locks := sh_locks s; sh_owner := sh_owner s;
                            sh_contexts := S (sh_contexts s); sh_fault := Ok tt; sh_threads := set_thread (sh_threads s) t r |}
    end
  | _ => None
  end.

(** A schedule names the thread that runs next; a thread that waits does nothing. *)
Definition irun (s : shared) (schedule : list nat) : shared := fold_left (fun s t => match istep s t with Some s' => s' | None => s end) schedule s.
End Run.
