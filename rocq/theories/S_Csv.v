(** Specifications for CSV lines, datasets, random databases and paths. No model definitions are used here. *)
From Coq Require Import Permutation.
From Verif Require Import Base.

(** White space of the "C" locale. *)
Definition white (b : byte) : Prop := In b [x20; x09; x0a; x0b; x0c; x0d].
(** Bytes below 0x80. *)
Definition ascii (b : byte) : Prop := bz b < 128.

Fixpoint join_commas (fs : list bytes) : bytes :=
  match fs with
  | [] => []
  | [f] => f
  | f :: fs' => f ++ x2c :: join_commas fs'
  end.

(** [doubled v s]: s is v with every double quote written twice. *)
Inductive doubled : bytes -> bytes -> Prop :=
| doubled_nil : doubled [] []
| doubled_quote v s : doubled v s -> doubled (x22 :: v) (x22 :: x22 :: s)
| doubled_other b v s : b <> x22 -> doubled v s -> doubled (b :: v) (b :: s).

(** How the text of a cell denotes a value:
    - optional white space, a quoted value, then anything without comma up to the next comma (ignored);
    - or unquoted text, from which surrounding white space is dropped. *)
Inductive cell : bytes -> bytes -> Prop :=
| cell_quoted ws v body junk :
    Forall white ws -> doubled v body -> ~ In x2c junk -> (forall t, junk <> x22 :: t) ->
    cell (ws ++ x22 :: body ++ x22 :: junk) v
| cell_plain ws v ws' :
    Forall white ws -> Forall white ws' -> Forall ascii v -> ~ In x2c v ->
    (forall b t, v = b :: t -> ~ white b /\ b <> x22) -> (forall b t, v = t ++ [b] -> ~ white b) ->
    cell (ws ++ v ++ ws') v.

(** Text files whose lines are each ended by a newline. *)
Definition text_of (ls : list bytes) : bytes := flat_map (fun l => l ++ [x0a]) ls.

(** An identifier that a dataset file can hold. *)
Definition storable (id : bytes) : Prop := ~ In x00 id /\ ~ In x0a id.

(** The sum of the values of the rows whose identifier is in [server]. *)
Definition sum_common (server : list bytes) (rows : list (bytes * Z)) : Z :=
  fold_right Z.add 0 (map snd (filter (fun r => if in_dec bytes_eq_dec (fst r) server then true else false) rows)).

(** The two lists share at least [n] elements, counting multiplicities. *)
Definition share_at_least (n : nat) (a b : list bytes) : Prop :=
  exists common ra rb, length common = n /\ Permutation a (common ++ ra) /\ Permutation b (common ++ rb).

(** Maximal slash-free non-empty pieces of a path. *)
Fixpoint segments_acc (cur s : bytes) : list bytes :=
  match s with
  | [] => match cur with [] => [] | _ => [cur] end
  | b :: s' => if byte_eqb b x2f then (match cur with [] => segments_acc [] s' | _ => cur :: segments_acc [] s' end)
               else segments_acc (cur ++ [b]) s'
  end.
Definition segments (s : bytes) : list bytes := segments_acc [] s.

(** Two slashes next to each other. *)
Definition double_slash (s : bytes) : Prop := exists a b, s = a ++ [x2f; x2f] ++ b.

(** [decimal ds n]: ds is a non-empty string of decimal digits, most significant first, for n. *)
Inductive decimal : bytes -> Z -> Prop :=
| decimal_one b : 48 <= bz b <= 57 -> decimal [b] (bz b - 48)
| decimal_more ds n b : decimal ds n -> 48 <= bz b <= 57 -> decimal (ds ++ [b]) (10 * n + (bz b - 48)).

(** A value column: white space, an optional sign, decimal digits, white space; the number is not negative and fits in int64. *)
Definition value_text (v : bytes) (n : Z) : Prop :=
  exists ws sign ds ws' m, v = ws ++ sign ++ ds ++ ws' /\ Forall white ws /\ Forall white ws' /\ decimal ds m /\
    ((sign = [] \/ sign = [x2b]) /\ n = m \/ sign = [x2d] /\ n = - m) /\ 0 <= n < 2 ^ 63.

(** An identifier of a generated database: 32 letters and digits. *)
Definition letter_or_digit (b : byte) : Prop := 48 <= bz b <= 57 \/ 65 <= bz b <= 90 \/ 97 <= bz b <= 122.
Definition random_id (id : bytes) : Prop := length id = 32%nat /\ Forall letter_or_digit id.
