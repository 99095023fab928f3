(** Specifications for record and line files. *)
From Verif Require Import Base.

(** A piece as the line reader sees it: a non-empty chunk of at most [cap] bytes, with a newline at most in its
    last position, that stops only because of a newline, because it is full, or because the file ended. *)
Definition piece (cap : nat) (p rest : bytes) : Prop :=
  p <> [] /\ (length p <= cap)%nat /\
  (forall a b, p = a ++ x0a :: b -> b = []) /\
  ((exists a, p = a ++ [x0a]) \/ length p = cap \/ rest = []).

Inductive pieces (cap : nat) : bytes -> list bytes -> Prop :=
| pieces_nil : pieces cap [] []
| pieces_cons p rest ps : piece cap p rest -> pieces cap rest ps -> pieces cap (p ++ rest) (p :: ps).

(** What is reported for a piece: [l] is the part before the first NUL, without a final newline or
    carriage-return newline. *)
Inductive before_nul : bytes -> bytes -> Prop :=
| bn_nil : before_nul [] []
| bn_stop s : before_nul (x00 :: s) []
| bn_cons b s t : b <> x00 -> before_nul s t -> before_nul (b :: s) (b :: t).

Inductive reported : bytes -> bytes -> Prop :=
| rep_crnl p s : before_nul p (s ++ [x0d; x0a]) -> reported p s
| rep_nl p s : before_nul p (s ++ [x0a]) -> (forall t, s <> t ++ [x0d]) -> reported p s
| rep_plain p s : before_nul p s -> (forall t, s <> t ++ [x0a]) -> reported p s.

(** Lines that survive: no newline, no NUL, not ending in CR, short enough for the buffer with the newline. *)
Definition good_line (cap : nat) (l : bytes) : Prop :=
  ~ In x0a l /\ ~ In x00 l /\ (forall t, l <> t ++ [x0d]) /\ (length l < cap)%nat.

(** Any file as the record reader divides it. A header is at most five bytes, all but the last with the top bit set; it stands for the number with
    the low seven bits of its bytes as digits, the first byte counting least, modulo 2^32. *)
Definition digits_value (h : bytes) : Z := fold_right Z.add 0 (map (fun i => Z.of_N (Byte.to_N (nth i h x00)) mod 128 * 128 ^ Z.of_nat i) (seq 0 (length h))).
Definition continued (b : byte) : Prop := 128 <= Z.of_N (Byte.to_N b).
Definition header (h : bytes) (n : Z) : Prop :=
  exists ini last, h = ini ++ [last] /\ (length ini <= 4)%nat /\ Forall continued ini /\ ~ continued last /\ n = digits_value h mod 2 ^ 32.
(** How the sequence of records ends: at the end of the file, in a record that is shorter than announced, in a header that never ends, or inside a header. *)
Inductive ending := Clean | Short_record | Long_header | Cut_header.
Inductive divided : bytes -> list bytes -> ending -> Prop :=
| div_end : divided [] [] Clean
| div_record h r f rs e : header h (Z.of_nat (length r)) -> divided f rs e -> divided (h ++ r ++ f) (r :: rs) e
| div_short h n f : header h n -> Z.of_nat (length f) < n -> divided (h ++ f) [] Short_record
| div_long h f : length h = 5%nat -> Forall continued h -> divided (h ++ f) [] Long_header
| div_cut h : (1 <= length h <= 4)%nat -> Forall continued h -> divided h [] Cut_header.
