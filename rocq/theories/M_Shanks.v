(** Bounded discrete logarithm: models crypto/shanks_discrete_log.cc. *)
From Verif Require Import Base M_BigNum M_EC.

(** [1 << n] on a 32-bit int. *)
Definition shl_int (n : Z) : outcome Z := if (0 <=? n) && (n <? 31) then Ok (2 ^ n) else UB.

(** shanks_discrete_log.cc 36. *)
Definition max_message_size : Z := 40.

(** std::map<std::string, int>: find, and insert, which keeps an existing entry. *)
Fixpoint table_find (k : bytes) (t : list (bytes * Z)) : option Z :=
  match t with [] => None | (k', v) :: r => if bytes_eqb k k' then Some v else table_find k r end.
Definition table_insert (k : bytes) (v : Z) (t : list (bytes * Z)) : list (bytes * Z) :=
  match table_find k t with Some _ => t | None => t ++ [(k, v)] end.

Record shanks (C : ec) := { sh_gen : pt C; sh_max : Z; sh_pre : Z; sh_table : list (bytes * Z) }.

(** shanks_discrete_log.cc 50-62 PrecomputeTable, the loop; [cnt] iterations left. *)
Fixpoint table_loop (C : ec) (cnt : nat) (i : Z) (gen point : pt C) (t : list (bytes * Z)) : outcome (list (bytes * Z)) :=
  match cnt with
  | O => Ok t
  | S c =>
      let point' := padd C gen point in
      let* key := point_to_bytes C point' in
      table_loop C c (i + 1) gen point' (table_insert key i t)
  end.

(** shanks_discrete_log.cc 64-86 Create. *)
Definition shanks_create (C : ec) (gen : pt C) (max_bits pre_bits : Z) : outcome (shanks C) :=
  if max_bits <=? pre_bits then Err InvalidArgument
  else if max_message_size <? max_bits then Err InvalidArgument
  else
    let* size := shl_int pre_bits in
    let* t := table_loop C (Z.to_nat (size - 1)) 1 gen (pinf C) [] in
    Ok {| sh_gen := gen; sh_max := max_bits; sh_pre := pre_bits; sh_table := t |}.

(** shanks_discrete_log.cc 95-112: the giant-step loop; [cnt] iterations left. The arithmetic on int64_t stays below
    2^40. *)
Fixpoint shanks_loop (C : ec) (t : shanks C) (cnt : nat) (i : Z) (baby state : pt C) : outcome Z :=
  match cnt with
  | O => Err InvalidArgument
  | S c =>
      if is_inf C state then Ok (2 ^ sh_pre C t * i)
      else
        let* key := point_to_bytes C state in
        match table_find key (sh_table C t) with
        | Some v => Ok (2 ^ sh_pre C t * i + v)
        | None => shanks_loop C t c (i + 1) baby (padd C state baby)
        end
  end.

(** shanks_discrete_log.cc 88-115 GetDiscreteLog. *)
Definition get_discrete_log (C : ec) (t : shanks C) (point : pt C) : outcome Z :=
  let* size := shl_int (sh_pre C t) in
  let baby := point_mul C (pneg C (sh_gen C t)) size in
  let* steps := shl_int (sh_max C t - sh_pre C t) in
  shanks_loop C t (Z.to_nat steps) 0 baby point.
