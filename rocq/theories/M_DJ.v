(** Damgard-Jurik helpers shared, as textual copies, by crypto/paillier.cc and crypto/camenisch_shoup.cc. Simplification: s is a
    natural number (the C++ parameter is an int, or uint64_t; negative s is not modelled) and table indices do not overflow int. *)
From Verif Require Import Base M_BigNum.

(** v[i] on a std::vector: out of range is undefined behaviour. *)
Definition vec_at {A} (v : list A) (i : nat) : outcome A :=
  match nth_error v i with Some x => Ok x | None => UB end.

(** paillier.cc 121-128, camenisch_shoup.cc 49-57 GetPowers: the loop, from the last element pushed. *)
Fixpoint powers_loop (n : nat) (last num : Z) : list Z :=
  match n with O => [] | S k => let x := last * num in x :: powers_loop k x num end.
(** num^i for i in [0, s+1]. *)
Definition get_powers (num : Z) (s : nat) : list Z := 1 :: powers_loop (s + 1) 1 num.

(** paillier.cc 130-141, camenisch_shoup.cc 36-47 GetPrecomp: the loop from counter [i] on. *)
Fixpoint precomp_loop (n : nat) (i last num modulus : Z) : outcome (list Z) :=
  match n with
  | O => Ok []
  | S k =>
      let* i_inv := value_or_crash (bn_mod_inverse i modulus) in
      let* i_inv_n := bn_mod_mul i_inv num modulus in
      let* y := bn_mod_mul last i_inv_n modulus in
      let* rest := precomp_loop k (i + 1) y num modulus in
      Ok (y :: rest)
  end.
Definition get_precomp (num modulus : Z) (s : nat) : outcome (list Z) :=
  let* rest := precomp_loop s 1 1 num modulus in Ok (1 :: rest).

(** paillier.cc 52-80 BigNumTable, as a list of (key, value); insert() keeps an existing entry. camenisch_shoup.cc uses a std::map
    on pairs instead, whose at() aborts on a missing key (exceptions are disabled). *)
Definition table := list (nat * Z).
Fixpoint table_find (t : table) (key : nat) : option Z :=
  match t with
  | [] => None
  | (k, v) :: rest => if Nat.eqb k key then Some v else table_find rest key
  end.
(** paillier.cc 60-63 Insert. *)
Definition table_insert (col : nat) (t : table) (x y : nat) (v : Z) : outcome table :=
  if negb (y <? col)%nat then Crash
  else match table_find t (x * col + y) with Some _ => Ok t | None => Ok ((x * col + y, v)%nat :: t) end.
(** paillier.cc 68-76 Get. *)
Definition table_get (col : nat) (t : table) (x y : nat) : outcome Z :=
  if negb (y <? col)%nat then Crash
  else match table_find t (x * col + y) with Some v => Ok v | None => Crash end.

(** paillier.cc 164-166, camenisch_shoup.cc 81-85: for (j = s-1; j >= k; j--), [n] iterations remaining, next index j = k + n - 1. *)
Fixpoint decrypt_row (n : nat) (col : nat) (k : nat) (powers : list Z) (t : table) : outcome table :=
  match n with
  | O => Ok t
  | S n' =>
      let j := (k + n')%nat in
      let* v := table_get col t k (j + 1) in
      let* pj := vec_at powers j in
      let* r := bn_mod v pj in
      let* t' := table_insert col t k j r in
      decrypt_row n' col k powers t'
  end.
(** paillier.cc 161-167, camenisch_shoup.cc 76-86: for (k = 2; k <= s; k++), [n] iterations remaining. *)
Fixpoint decrypt_rows (n : nat) (k : nat) (s : nat) (precomp powers : list Z) (t : table) : outcome table :=
  match n with
  | O => Ok t
  | S n' =>
      let* ps := vec_at powers s in
      let* k_inv := value_or_crash (bn_mod_inverse (Z.of_nat k) ps) in
      let* pre := vec_at precomp (k - 1) in
      let* v := bn_mod_mul k_inv pre ps in
      let* t1 := table_insert (s + 1) t k s v in
      let* t2 := decrypt_row (s - k) (s + 1) k powers t1 in
      decrypt_rows n' (k + 1) s precomp powers t2
  end.
(** paillier.cc 145-169, camenisch_shoup.cc 62-88 GetDecryptPrecomp. *)
Definition get_decrypt_precomp (precomp powers : list Z) (s : nat) : outcome table :=
  decrypt_rows (s - 1) 2 s precomp powers [].

(** paillier.cc 182-190, camenisch_shoup.cc 101-109: the loop from index [j] on, [n] iterations remaining. *)
Fixpoint expansion_loop (n : nat) (j s : nat) (precomp powers : list Z) (reduced c tmp : Z) : outcome Z :=
  match n with
  | O => Ok c
  | S n' =>
      if reduced <? Z.of_nat j then Ok c
      else
        let* pm := vec_at powers (s - j + 1) in
        let* tmp' := bn_mod_mul tmp (reduced - Z.of_nat j + 1) pm in
        let* pre := vec_at precomp j in
        let* pt := vec_at powers (s + 1) in
        let* term := bn_mod_mul tmp' pre pt in
        expansion_loop n' (j + 1) s precomp powers reduced (c + term) tmp'
  end.
(** paillier.cc 173-192, camenisch_shoup.cc 92-111 ComputeByBinomialExpansion. *)
Definition binomial_expansion (precomp powers : list Z) (message : Z) : outcome Z :=
  let s := (length precomp - 1)%nat in
  let* ps := vec_at powers s in
  let* reduced := bn_mod message ps in
  expansion_loop s 1 s precomp powers reduced 1 1.
