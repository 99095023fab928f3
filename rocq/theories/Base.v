(** Common vocabulary of the model: outcomes of C++ calls and bytes. *)
From Coq Require Export List Bool ZArith Lia.
From Coq Require Export Init.Byte.
From Coq Require Import Strings.Byte NArith.
Export ListNotations.
Open Scope Z_scope.

(** absl::StatusCode values the code base uses (util/status.inc, absl/status).
    Only the code of a Status is modelled, never its message. *)
Inductive code :=
| InvalidArgument | Internal | NotFound | AlreadyExists | Unknown.

Definition code_eqb (a b : code) : bool :=
  match a, b with
  | InvalidArgument, InvalidArgument | Internal, Internal | NotFound, NotFound
  | AlreadyExists, AlreadyExists | Unknown, Unknown => true
  | _, _ => false
  end.

(** Result of a C++ call.
    [Ok a]: normal return / OK StatusOr.
    [Err c]: non-OK Status with code [c].
    [Crash]: failed CHECK, LOG(FATAL), or StatusOr::value() on an error, i.e. process abort.
    [UB]: undefined or unspecified behaviour (out-of-bounds access, read of an uninitialised variable,
          integer division by zero, oversized shift, ...).
    [Diverge]: the explicit fuel of a loop that the C++ code does not bound ran out. *)
Inductive outcome (A : Type) :=
| Ok (a : A)
| Err (c : code)
| Crash
| UB
| Diverge.
Arguments Ok {A} a.
Arguments Err {A} c.
Arguments Crash {A}.
Arguments UB {A}.
Arguments Diverge {A}.

Definition bind {A B} (x : outcome A) (f : A -> outcome B) : outcome B :=
  match x with
  | Ok a => f a
  | Err c => Err c
  | Crash => Crash
  | UB => UB
  | Diverge => Diverge
  end.

Declare Scope outcome_scope.
Delimit Scope outcome_scope with outcome.
Notation "'let*' x := c1 'in' c2" := (bind c1 (fun x => c2))
  (at level 61, x pattern, c1 at next level, right associativity) : outcome_scope.
Open Scope outcome_scope.

(** StatusOr<T>::value(): aborts when the status is not OK. *)
Definition value_or_crash {A} (x : outcome A) : outcome A :=
  match x with Err _ => Crash | _ => x end.

Definition is_ok {A} (x : outcome A) : bool :=
  match x with Ok _ => true | _ => false end.

(** Sequence a fallible map over a list, stopping at the first failure (the pattern
    "for (x : xs) { PJC_ASSIGN_OR_RETURN(y, f(x)); out.push_back(y); }"). *)
Fixpoint mapM {A B} (f : A -> outcome B) (l : list A) : outcome (list B) :=
  match l with
  | [] => Ok []
  | x :: xs => let* y := f x in let* ys := mapM f xs in Ok (y :: ys)
  end.

(** Bytes. *)
Definition bz (b : byte) : Z := Z.of_N (Byte.to_N b).
Definition zb (z : Z) : byte :=
  match Byte.of_N (Z.to_N (z mod 256)) with Some b => b | None => x00 end.

Definition byte_eqb (a b : byte) : bool := Z.eqb (bz a) (bz b).

Definition bytes := list byte.

(** std::string operator< on unsigned bytes (char_traits<char>::compare = memcmp): lexicographic. *)
Fixpoint bytes_ltb (a b : bytes) : bool :=
  match a, b with
  | _, [] => false
  | [], _ :: _ => true
  | x :: xs, y :: ys =>
      if bz x <? bz y then true else if bz y <? bz x then false else bytes_ltb xs ys
  end.

Fixpoint bytes_eqb (a b : bytes) : bool :=
  match a, b with
  | [], [] => true
  | x :: xs, y :: ys => byte_eqb x y && bytes_eqb xs ys
  | _, _ => false
  end.

(** Basic lemmas. *)
Lemma bz_range b : 0 <= bz b < 256.
Proof. unfold bz. pose proof (Byte.to_N_bounded b). lia. Qed.

Lemma zb_bz b : zb (bz b) = b.
Proof.
  unfold zb. rewrite Z.mod_small by apply bz_range.
  unfold bz. rewrite N2Z.id, Byte.of_to_N. reflexivity.
Qed.

Lemma bz_zb z : bz (zb z) = z mod 256.
Proof.
  unfold zb.
  assert (H : 0 <= z mod 256 < 256) by (apply Z.mod_pos_bound; lia).
  destruct (Byte.of_N (Z.to_N (z mod 256))) as [b|] eqn:E.
  - unfold bz. apply Byte.to_of_N in E. rewrite E. rewrite Z2N.id; lia.
  - apply Byte.of_N_None_iff in E. lia.
Qed.

Lemma bz_inj a b : bz a = bz b -> a = b.
Proof. intros H. rewrite <- (zb_bz a), <- (zb_bz b), H. reflexivity. Qed.

Lemma byte_eqb_eq a b : byte_eqb a b = true <-> a = b.
Proof.
  unfold byte_eqb. rewrite Z.eqb_eq. split; [apply bz_inj | congruence].
Qed.

Lemma byte_eqb_refl a : byte_eqb a a = true.
Proof. apply byte_eqb_eq; reflexivity. Qed.

Lemma bytes_eqb_eq a b : bytes_eqb a b = true <-> a = b.
Proof.
  revert b; induction a as [|x xs IH]; intros [|y ys]; cbn [bytes_eqb];
    try (split; congruence).
  rewrite andb_true_iff, byte_eqb_eq, IH. split; [intros [-> ->]|intros [= -> ->]]; auto.
Qed.

Lemma bytes_eqb_refl a : bytes_eqb a a = true.
Proof. apply bytes_eqb_eq; reflexivity. Qed.

Lemma bytes_ltb_irrefl a : bytes_ltb a a = false.
Proof.
  induction a as [|x xs IH]; cbn [bytes_ltb]; [reflexivity|].
  rewrite Z.ltb_irrefl. exact IH.
Qed.

Lemma bytes_ltb_trans a b c : bytes_ltb a b = true -> bytes_ltb b c = true -> bytes_ltb a c = true.
Proof.
  revert b c; induction a as [|x xs IH]; intros [|y ys] [|z zs]; cbn [bytes_ltb]; try congruence.
  destruct (Z.ltb_spec (bz x) (bz y)), (Z.ltb_spec (bz y) (bz x)), (Z.ltb_spec (bz y) (bz z)),
    (Z.ltb_spec (bz z) (bz y)), (Z.ltb_spec (bz x) (bz z)), (Z.ltb_spec (bz z) (bz x));
    try lia; try congruence; auto.
  apply IH.
Qed.

Lemma bytes_ltb_total a b : bytes_ltb a b = false -> bytes_ltb b a = false -> a = b.
Proof.
  revert b; induction a as [|x xs IH]; intros [|y ys]; cbn [bytes_ltb]; try congruence.
  destruct (Z.ltb_spec (bz x) (bz y)), (Z.ltb_spec (bz y) (bz x)); try lia; try congruence.
  intros H1 H2. f_equal; [apply bz_inj; lia | apply IH; assumption].
Qed.

Lemma bytes_ltb_asym a b : bytes_ltb a b = true -> bytes_ltb b a = false.
Proof.
  intros H. destruct (bytes_ltb b a) eqn:E; [|reflexivity].
  pose proof (bytes_ltb_trans _ _ _ H E) as H1. rewrite bytes_ltb_irrefl in H1. discriminate.
Qed.

Lemma byte_eq_dec (a b : byte) : {a = b} + {a <> b}.
Proof.
  destruct (byte_eqb a b) eqn:E; [left; apply byte_eqb_eq; exact E|right].
  intros H. apply byte_eqb_eq in H. congruence.
Defined.

Definition bytes_eq_dec : forall a b : bytes, {a = b} + {a <> b} := list_eq_dec byte_eq_dec.

Lemma bind_ok {A B} (x : outcome A) (f : A -> outcome B) b :
  bind x f = Ok b -> exists a, x = Ok a /\ f a = Ok b.
Proof. destruct x as [a|c| | |]; cbn; intros H; try discriminate. exists a; auto. Qed.

Lemma mapM_ok {A B} (f : A -> outcome B) l ys :
  mapM f l = Ok ys <-> Forall2 (fun x y => f x = Ok y) l ys.
Proof.
  revert ys; induction l as [|x xs IH]; intros ys; cbn [mapM].
  - split; [intros [= <-]; constructor | intros H; inversion H; reflexivity].
  - split.
    + intros H. apply bind_ok in H as (y & Hy & H). apply bind_ok in H as (zs & Hz & H).
      injection H as <-. constructor; [exact Hy | apply IH; exact Hz].
    + intros H. inversion H as [|? y ? zs Hy Hz]; subst. rewrite Hy. cbn [bind].
      apply IH in Hz. rewrite Hz. reflexivity.
Qed.

Lemma mapM_map_ok {A B} (f : A -> outcome B) (g : A -> B) l :
  (forall x, In x l -> f x = Ok (g x)) -> mapM f l = Ok (map g l).
Proof.
  induction l as [|x xs IH]; intros H; cbn [mapM map]; [reflexivity|].
  rewrite H by (left; reflexivity). cbn [bind].
  rewrite IH by (intros y Hy; apply H; right; exact Hy). reflexivity.
Qed.
