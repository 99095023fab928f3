(** Decimal printing and parsing of integers (absl::StrCat on integers, absl::SimpleAtoi<int64_t>). External
    library code, modelled because file names and CSV values depend on it. *)
From Verif Require Import Base.

(** Decimal digits of a non-negative number, most significant first; [fuel] at least the number of digits. *)
Fixpoint dec_digits (fuel : nat) (n : Z) (acc : bytes) : bytes :=
  match fuel with
  | O => acc
  | S k => if n <? 10 then zb (48 + n) :: acc
           else dec_digits k (n / 10) (zb (48 + n mod 10) :: acc)
  end.
Definition dec_fuel (n : Z) : nat := S (Z.to_nat (Z.log2 n)).

(** absl::StrCat of a signed integer. *)
Definition dec (n : Z) : bytes :=
  if n <? 0 then x2d :: dec_digits (dec_fuel (- n)) (- n) []
  else dec_digits (dec_fuel n) n [].

(** absl::ascii_isspace: space, \t \n \v \f \r. *)
Definition is_space (b : byte) : bool :=
  let z := bz b in (z =? 32) || ((9 <=? z) && (z <=? 13)).

Definition is_digit (b : byte) : bool := (48 <=? bz b) && (bz b <=? 57).

Fixpoint drop_space (s : bytes) : bytes :=
  match s with b :: s' => if is_space b then drop_space s' else s | [] => [] end.
Definition strip_space (s : bytes) : bytes := rev (drop_space (rev (drop_space s))).

Definition dec_value (s : bytes) : Z := fold_left (fun acc b => acc * 10 + (bz b - 48)) s 0.

(** absl::SimpleAtoi<int64_t>: surrounding white space ignored, optional sign, at least one digit, digits only,
    fails on overflow of int64. (absl/strings/numbers.cc safe_parse_sign_and_base / safe_int_internal.) *)
Definition simple_atoi64 (s : bytes) : option Z :=
  let body s neg :=
    match s with
    | [] => None
    | _ => if forallb is_digit s then
             let v := if neg : bool then - dec_value s else dec_value s in
             if (- 2 ^ 63 <=? v) && (v <? 2 ^ 63) then Some v else None
           else None
    end in
  match strip_space s with
  | [] => None
  | b :: s' =>
      if byte_eqb b x2d then body s' true
      else if byte_eqb b x2b then body s' false
      else body (b :: s') false
  end.
