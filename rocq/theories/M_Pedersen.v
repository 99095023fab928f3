(** Models crypto/pedersen_over_zn.{h,cc}: Pedersen commitments to vectors modulo n, and the proofs that parameters were generated correctly. *)
From Verif Require Import Base M_BigNum M_Num M_Simul M_Proto.

(** pedersen_over_zn.h Parameters (without the exponents rs) and the object: parameters and the precomputed exponentiation. *)
Record ped_params := { pp_gs : list Z; pp_h : Z; pp_n : Z }.
Record pedersen := { pd_par : ped_params; pd_exp : simul Z }.

(** pedersen_over_zn.cc 43-63 Create: .value() on an illegal batch size aborts. *)
Definition ped_create (pp : ped_params) (num_simultaneous : nat) : outcome pedersen :=
  let bases := pp_gs pp ++ [pp_h pp] in
  let* t := value_or_crash (simul_create Z (zn_mul (pp_n pp)) bases 1 (Nat.min (length bases) num_simultaneous)) in
  Ok {| pd_par := pp; pd_exp := t |}.

(** pedersen_over_zn.cc 85-115 CommitWithRand. *)
Definition ped_commit_with_rand (pd : pedersen) (ms : list Z) (r : Z) : outcome Z :=
  let gs := pp_gs (pd_par pd) in
  if (length gs <? length ms)%nat then Err InvalidArgument
  else if negb (forallb is_non_negative ms) then Err InvalidArgument
  else if negb (is_non_negative r) then Err InvalidArgument
  else simultaneous_exp Z (zn_mul (pp_n (pd_par pd))) zn_is_zero (pd_exp pd) (ms ++ repeat 0 (length gs - length ms) ++ [r]).
(** pedersen_over_zn.cc 77-83 Commit. *)
Definition ped_commit (pd : pedersen) (ms : list Z) (raw : Z) : outcome (Z * Z) :=
  let* r := generate_rand_less_than (pp_n (pd_par pd)) raw in
  let* c := ped_commit_with_rand pd ms r in
  Ok (c, r).
(** pedersen_over_zn.cc 117-121 Add. *)
Definition ped_add (pd : pedersen) (c1 c2 : Z) : outcome Z := bn_mod_mul c1 c2 (pp_n (pd_par pd)).
(** pedersen_over_zn.cc 123-126 Multiply. *)
Definition ped_multiply (pd : pedersen) (c k : Z) : outcome Z := bn_mod_exp c k (pp_n (pd_par pd)).
(** pedersen_over_zn.cc 128-160 Verify. *)
Definition ped_verify (pd : pedersen) (c : Z) (ms : list Z) (r : Z) : outcome bool :=
  let gs := pp_gs (pd_par pd) in
  if (length gs <? length ms)%nat then Err InvalidArgument
  else if negb (forallb is_non_negative ms) then Err InvalidArgument
  else if negb (is_non_negative r) then Err InvalidArgument
  else
    let* product := simultaneous_exp Z (zn_mul (pp_n (pd_par pd))) zn_is_zero (pd_exp pd) (ms ++ repeat 0 (length gs - length ms) ++ [r]) in
    Ok (c =? product).

(** pedersen_over_zn.cc 171-177: one g per entropy value. *)
Fixpoint gen_gs (h n : Z) (raws : list Z) : outcome (list Z * list Z) :=
  match raws with
  | [] => Ok ([], [])
  | raw :: rest =>
      let* bound := bn_div_trunc n 4 in
      let* r := generate_rand_less_than bound raw in
      let* g := bn_mod_exp h r n in
      let* gr := gen_gs h n rest in
      Ok (g :: fst gr, r :: snd gr)
  end.
(** pedersen_over_zn.cc 162-180 GenerateParameters; [xraws] is the entropy of the draws for x, [raws] has one value per g. *)
Definition generate_parameters (n : Z) (xraws raws : list Z) : outcome (ped_params * list Z) :=
  let* x := relatively_prime_random xraws n in
  let* h := bn_mod_sqr x n in
  let* gr := gen_gs h n raws in
  Ok ({| pp_gs := fst gr; pp_h := h; pp_n := n |}, snd gr).

(** ** Parameters as a proto message *)
Record ped_proto := { ppr_n : bytes; ppr_gs : list bytes; ppr_h : bytes }.
(** pedersen_over_zn.cc 403-410 ParametersToProto. *)
Definition ped_to_proto (pp : ped_params) : outcome ped_proto :=
  let* nb := to_bytes (pp_n pp) in
  let* gb := bignum_vector_to_proto (pp_gs pp) in
  let* hb := to_bytes (pp_h pp) in
  Ok {| ppr_n := nb; ppr_gs := gb; ppr_h := hb |}.
(** pedersen_over_zn.cc 419-423, 427-430: the check of one base. *)
Definition base_ok (n g : Z) : bool := negb ((g <=? 0) || (n <=? g) || negb (bn_gcd g n =? 1)).
(** pedersen_over_zn.cc 412-436 ParseParametersProto. *)
Definition ped_parse (p : ped_proto) : outcome ped_params :=
  let n := of_bytes (ppr_n p) in
  if n <=? 0 then Err InvalidArgument
  else
    let gs := parse_bignum_vector (ppr_gs p) in
    if negb (forallb (base_ok n) gs) then Err InvalidArgument
    else
      let h := of_bytes (ppr_h p) in
      if negb (base_ok n h) then Err InvalidArgument
      else Ok {| pp_gs := gs; pp_h := h; pp_n := n |}.
(** pedersen_over_zn.cc 65-73 FromProto. *)
Definition ped_from_proto (p : ped_proto) (num_simultaneous : nat) : outcome pedersen :=
  let* pp := ped_parse p in ped_create pp num_simultaneous.

(** ** Proofs of correct generation *)
Section Proofs.
(** SHA-512: external. *)
Variable sha512 : bytes -> bytes.

(** pedersen_over_zn.cc 182-190: the bytes hashed, integers one after the other without separators. *)
Definition gen_bytes (g h n : Z) (dummy_gs : list Z) : outcome bytes :=
  let* gb := to_bytes g in
  let* hb := to_bytes h in
  let* nb := to_bytes n in
  let* ds := mapM to_bytes dummy_gs in
  Ok (gb ++ hb ++ nb ++ concat ds).
(** pedersen_over_zn.cc 199-204: the lowest bit, then shift. *)
Fixpoint challenge_bits (k : nat) (c : Z) : outcome (list bool) :=
  match k with
  | O => Ok []
  | S k' => let* c' := bn_rshift c 1 in let* r := challenge_bits k' c' in Ok (is_bit_set c 0 :: r)
  end.
(** pedersen_over_zn.cc 182-207 GetGenProofChallenge. *)
Definition gen_challenge (g h n : Z) (dummy_gs : list Z) (reps : Z) : outcome (list bool) :=
  let* b := gen_bytes g h n dummy_gs in
  let* bound := bn_lshift 1 reps in
  let* c := random_oracle 512 sha512 b bound in
  challenge_bits (Z.to_nat reps) c.

(** pedersen_over_zn.h ProofOfGen. *)
Record gen_proof := { gp_reps : Z; gp_dummy_gs : list Z; gp_responses : list Z }.

(** pedersen_over_zn.cc 236-246: first messages. *)
Fixpoint gen_dummies (h n bits : Z) (raws : list Z) : outcome (list Z * list Z) :=
  match raws with
  | [] => Ok ([], [])
  | raw :: rest =>
      let* bound := bn_lshift n bits in
      let* r := generate_rand_less_than bound raw in
      let* d := bn_mod_exp h r n in
      let* rd := gen_dummies h n bits rest in
      Ok (r :: fst rd, d :: snd rd)
  end.
(** pedersen_over_zn.cc 209-271 ProveParametersCorrectlyGenerated; [raw i] is the entropy of repetition i. *)
Definition prove_params (g h n r reps zk : Z) (raw : nat -> Z) : outcome gen_proof :=
  if reps <=? 0 then Err InvalidArgument
  else if zk <=? 0 then Err InvalidArgument
  else if negb (bn_gcd h n =? 1) then Err InvalidArgument
  else
    let* hr := bn_mod_exp h r n in
    if negb (g =? hr) then Err InvalidArgument
    else
      let* rd := gen_dummies h n (1 + zk) (map raw (seq 0 (Z.to_nat reps))) in
      let* cs := gen_challenge g h n (snd rd) reps in
      Ok {| gp_reps := reps; gp_dummy_gs := snd rd;
            gp_responses := map (fun cr => if fst cr : bool then snd cr + r else snd cr) (combine cs (fst rd)) |}.

(** pedersen_over_zn.cc 301-314: the checks of all repetitions. *)
Fixpoint check_responses (g h n : Z) (cs : list bool) (ds zs : list Z) : outcome unit :=
  match cs, ds, zs with
  | c :: cs', d :: ds', z :: zs' =>
      let* expected := (if c then bn_mod_mul d g n else Ok d) in
      let* v := bn_mod_exp h z n in
      if negb (v =? expected) then Err InvalidArgument else check_responses g h n cs' ds' zs'
  | _, _, _ => Ok tt
  end.
(** pedersen_over_zn.cc 273-317 VerifyParamsProof. *)
Definition verify_params (g h n : Z) (pf : gen_proof) : outcome unit :=
  if gp_reps pf <=? 0 then Err InvalidArgument
  else if negb (Z.of_nat (length (gp_dummy_gs pf)) =? gp_reps pf) then Err InvalidArgument
  else if negb (Z.of_nat (length (gp_responses pf)) =? gp_reps pf) then Err InvalidArgument
  else if negb (bn_gcd h n =? 1) then Err InvalidArgument
  else
    let* cs := gen_challenge g h n (gp_dummy_gs pf) (gp_reps pf) in
    check_responses g h n cs (gp_dummy_gs pf) (gp_responses pf).

(** pedersen_over_zn.h ProofOfGenForTrustedModulus. *)
Record trusted_proof := { tp_len : Z; tp_dummy_g : Z; tp_response : Z }.
(** pedersen_over_zn.cc 319-331 GetTrustedGenProofChallenge. *)
Definition trusted_challenge (g h n dummy_g len : Z) : outcome Z :=
  let* b := gen_bytes g h n [dummy_g] in
  let* bound := bn_lshift 1 len in
  random_oracle 512 sha512 b bound.
(** pedersen_over_zn.cc 333-371 ProveParametersCorrectlyGeneratedForTrustedModulus. *)
Definition prove_trusted (g h n r len zk raw : Z) : outcome trusted_proof :=
  if len <=? 0 then Err InvalidArgument
  else if zk <=? 0 then Err InvalidArgument
  else if negb (bn_gcd h n =? 1) then Err InvalidArgument
  else
    let* hr := bn_mod_exp h r n in
    if negb (g =? hr) then Err InvalidArgument
    else
      let* bound := bn_lshift n (len + zk) in
      let* dr := generate_rand_less_than bound raw in
      let* d := bn_mod_exp h dr n in
      let* c := trusted_challenge g h n d len in
      Ok {| tp_len := len; tp_dummy_g := d; tp_response := dr + c * r |}.
(** pedersen_over_zn.cc 373-401 VerifyParamsProofForTrustedModulus. *)
Definition verify_trusted (g h n : Z) (pf : trusted_proof) : outcome unit :=
  if tp_len pf <=? 0 then Err InvalidArgument
  else if negb (bn_gcd h n =? 1) then Err InvalidArgument
  else
    let* c := trusted_challenge g h n (tp_dummy_g pf) (tp_len pf) in
    let* v := bn_mod_exp h (tp_response pf) n in
    let* gc := bn_mod_exp g c n in
    let* e := bn_mod_mul gc (tp_dummy_g pf) n in
    if negb (v =? e) then Err InvalidArgument else Ok tt.
End Proofs.
