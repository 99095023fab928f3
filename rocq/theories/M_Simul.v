(** Simultaneous fixed-bases exponentiation: models crypto/simultaneous_fixed_bases_exp.cc. *)
From Verif Require Import Base M_BigNum M_Num.

Section Simul.
(** The element type with its product and the test against the neutral element (the template parameters
    internal::Mul, internal::IsZero, simultaneous_fixed_bases_exp.cc 32-80). Cloning is the identity. *)
Variable E : Type.
Variable mul : E -> E -> E.
Variable is_zero : E -> bool.

(** [1 << n] on int: undefined from 31 on. *)
Definition shl1 (n : nat) : outcome nat := if (n <? 31)%nat then Ok (2 ^ n)%nat else UB.

Record simul := { sm_bases : nat; sm_simultaneous : nat; sm_batches : nat; sm_zero : E; sm_table : list (list E) }.

(** simultaneous_fixed_bases_exp.cc 140-154: the loop over j of Precompute for one batch, [cnt] iterations left. *)
Fixpoint pre_loop (cnt j highest start : nat) (bases tbl : list E) : outcome (list E) :=
  match cnt with
  | O => Ok tbl
  | S c =>
      let h := if Nat.testbit j (S highest) then S highest else highest in
      let prev := (j - 2 ^ h)%nat in
      match nth_error bases (start + h) with
      | None => UB
      | Some b =>
          if (prev =? 0)%nat then pre_loop c (S j) h start bases (tbl ++ [b])
          else match nth_error tbl prev with
               | None => UB
               | Some t => pre_loop c (S j) h start bases (tbl ++ [mul t b])
               end
      end
  end.

(** simultaneous_fixed_bases_exp.cc 130-155: one batch. *)
Definition pre_batch (bases : list E) (zero : E) (num_simultaneous i : nat) : outcome (list E) :=
  let start := (i * num_simultaneous)%nat in
  let items := Nat.min (length bases - start) num_simultaneous in
  let* size := shl1 items in
  pre_loop (size - 1) 1 0 start bases [zero].

(** simultaneous_fixed_bases_exp.cc 124-158 Precompute. *)
Definition precompute (bases : list E) (zero : E) (num_simultaneous num_batches : nat) : outcome (list (list E)) :=
  mapM (pre_batch bases zero num_simultaneous) (seq 0 num_batches).

(** simultaneous_fixed_bases_exp.cc 95-121 Create. *)
Definition simul_create (bases : list E) (zero : E) (num_simultaneous : nat) : outcome simul :=
  if (num_simultaneous =? 0)%nat then Err InvalidArgument
  else if (length bases <? num_simultaneous)%nat then Err InvalidArgument
  else
    let num_batches := ((length bases + num_simultaneous - 1) / num_simultaneous)%nat in
    let* table := precompute bases zero num_simultaneous num_batches in
    Ok {| sm_bases := length bases; sm_simultaneous := num_simultaneous; sm_batches := num_batches;
          sm_zero := zero; sm_table := table |}.

(** simultaneous_fixed_bases_exp.cc 184-189: the table index for bit [i]; [k] runs over the batch. *)
Fixpoint pre_index (cnt k start : nat) (i : Z) (exponents : list Z) (idx : nat) : outcome nat :=
  match cnt with
  | O => Ok idx
  | S c =>
      match nth_error exponents (start + k) with
      | None => UB
      | Some e =>
          if is_bit_set e i then let* s := shl1 k in pre_index c (S k) start i exponents (idx + s)
          else pre_index c (S k) start i exponents idx
      end
  end.

(** simultaneous_fixed_bases_exp.cc 178-196: the batches for bit [i]. *)
Fixpoint batch_loop (t : simul) (cnt j : nat) (i : Z) (exponents : list Z) (result : E) : outcome E :=
  match cnt with
  | O => Ok result
  | S c =>
      let start := (j * sm_simultaneous t)%nat in
      let batch_size := Nat.min (sm_simultaneous t) (sm_bases t - start) in
      let* idx := pre_index batch_size 0 start i exponents 0 in
      if (idx =? 0)%nat then batch_loop t c (S j) i exponents result
      else match nth_error (sm_table t) j with
           | None => UB
           | Some row => match nth_error row idx with
                         | None => UB
                         | Some e => batch_loop t c (S j) i exponents (mul result e)
                         end
           end
  end.

(** simultaneous_fixed_bases_exp.cc 174-197: the bits from [n-1] down to 0. *)
Fixpoint bit_loop (t : simul) (n : nat) (exponents : list Z) (result : E) : outcome E :=
  match n with
  | O => Ok result
  | S k =>
      let r := if is_zero result then result else mul result result in
      let* r' := batch_loop t (sm_batches t) 0 (Z.of_nat k) exponents r in
      bit_loop t k exponents r'
  end.

(** simultaneous_fixed_bases_exp.cc 160-200 SimultaneousExp. *)
Definition simultaneous_exp (t : simul) (exponents : list Z) : outcome E :=
  if negb (length exponents =? sm_bases t)%nat then Err InvalidArgument
  else
    let max_bits := fold_left (fun m e => Z.max m (bit_length e)) exponents 0 in
    bit_loop t (Z.to_nat max_bits) exponents (sm_zero t).
End Simul.

(** The two instantiations: integers modulo m (lines 48-56) and Montgomery form (58-76). *)
Definition zn_mul (m : Z) (a b : Z) : Z := (a * b) mod m.
Definition zn_is_zero (a : Z) : bool := a =? 1.
Definition mont_is_zero (c : mont_ctx) (a : Z) : bool := mont_to_bignum c a =? 1.
