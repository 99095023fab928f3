(** What users of the library from several threads rely on (C101). *)
From Verif Require Import Base M_Init.

(** The thread is inside the critical section that lock [n] guards. *)
Definition inside (s : shared) (t : nat) (n : Z) : Prop := exists r, sh_threads s t = IRelease n :: r.
Definition finished (s : shared) (t : nat) : Prop := sh_threads s t = [].
(** A program that constructs a Context before anything else, and names only locks that exist. *)
Definition context_first (num_locks : Z) (p : list request) : Prop :=
  match p with [] => True | NewContext :: rest => Forall (fun r => match r with NewContext => True | UseLock n => 0 <= n < num_locks end) rest | UseLock _ :: _ => False end.
Definition contexts_in (p : list request) : nat := length (filter (fun r => match r with NewContext => true | UseLock _ => false end) p).
