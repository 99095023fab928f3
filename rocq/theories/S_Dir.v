(** Specification of the functions on files and directories: names, well-formed trees, and what a call may change. *)
From Verif Require Import Base M_Dir.

(** [names s p]: the string [s] spells the components [p], with one or more slashes between two of them. *)
Inductive names : bytes -> path -> Prop :=
  | names_end : names [] []
  | names_slash s p : names s p -> names (x2f :: s) p
  | names_component c s p : c <> [] -> ~ In x2f c -> names s p -> (s = [] \/ exists r, s = x2f :: r) -> names (c ++ s) (c :: p).
Definition ends_in_slash (s : bytes) : Prop := exists r, s = r ++ [x2f].
(** No NUL in the string, so that C functions see all of it. *)
Definition plain (s : bytes) : Prop := ~ In x00 s.
(** The view shows [s], and a NUL follows it in memory. *)
Definition terminated (v : view) (s : bytes) : Prop := plain s /\ v_len v = length s /\ exists rest, v_mem v = s ++ x00 :: rest.

(** [q] is [p] or below it. *)
Definition under (p q : path) : Prop := exists r, q = p ++ r.
Definition below (p q : path) : Prop := exists r, r <> [] /\ q = p ++ r.
(** Every entry is in a directory. *)
Definition wf (t : tree) : Prop := forall p k, p <> [] -> lookup t p = Some k -> lookup t (removelast p) = Some KDir.
(** The string names an entry of this kind: a file cannot be named with a slash at the end. *)
Definition named (t : tree) (s : bytes) (k : kind) : Prop :=
  s <> [] /\ exists p, names s p /\ lookup t p = Some k /\ (k = KDir \/ ~ ends_in_slash s).
Definition empty_dir (t : tree) (p : path) : Prop := lookup t p = Some KDir /\ forall q, below p q -> lookup t q = None.
(** A file where a directory is needed. *)
Definition file_in_the_way (t : tree) (p : path) : Prop := exists q c, under q p /\ lookup t q = Some (KFile c).

(** Everything but what is at [p] or below is as before. *)
Definition same_outside (t t' : tree) (p : path) : Prop := forall q, ~ under p q -> lookup t' q = lookup t q.
(** All the entries at [p] and below, each of them before its directory. *)
Definition traversal (t : tree) (p : path) (order : list path) : Prop :=
  (forall q, In q order <-> under p q /\ lookup t q <> None) /\
  forall before q after, order = before ++ q :: after -> forall r, In r after -> ~ under q r.

(** When rename has to work, for names [a] of [p] and [b] of [q]. *)
Definition renamable (t : tree) (a b : bytes) (p q : path) : Prop :=
  p <> [] /\ q <> [] /\ lookup t (removelast q) = Some KDir /\
  ((exists c, named t a (KFile c) /\ ((lookup t q = None /\ ~ ends_in_slash b) \/ exists d, named t b (KFile d))) \/
   (named t a KDir /\ (p = q \/ (~ under p q /\ (lookup t q = None \/ empty_dir t q))))).
(** What rename does when it works: what was at [p] and below is at [q] and below, nothing is left at [p], all else is as before. *)
Definition renamed (t t' : tree) (p q : path) : Prop :=
  (p = q -> t' = t) /\
  (p <> q -> (forall r, lookup t' (q ++ r) = lookup t (p ++ r)) /\ (forall x, under p x -> lookup t' x = None) /\
             forall x, ~ under p x -> ~ under q x -> lookup t' x = lookup t x).
(** Nothing that is there is lost or changed, and what is new is a directory that leads to [p]. *)
Definition grown (t t' : tree) (p : path) : Prop :=
  (forall q k, lookup t q = Some k -> lookup t' q = Some k) /\
  (forall q, lookup t q = None -> lookup t' q = None \/ (lookup t' q = Some KDir /\ under q p)).
