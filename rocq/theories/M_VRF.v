(** Models crypto/dodis_yampolskiy_prf/dy_verifiable_random_function.{h,cc}: the Dodis-Yampolskiy verifiable random function. Bit counts
    (int64 in the parameters, int in BigNum::Lshift) are unbounded integers here. *)
From Verif Require Import Base M_BigNum M_Num M_EC M_Proto M_Pedersen M_Wire.
From Coq Require Import String List. Import ListNotations. Open Scope list_scope. Open Scope Z_scope.

(** dy_verifiable_random_function.proto DyVrfParameters; random_oracle_prefix only takes part in the hash. *)
Record dy_params := { dp_sec : Z; dp_chal : Z; dp_prefix : bytes; dp_base : bytes; dp_ped : ped_proto }.

(** Encoded messages. *)
Definition wire_vector (bs : list bytes) : list entry := f_rep 1 bs.
Definition wire_ped (p : ped_proto) : list entry := f_bytes 1 (ppr_n p) ++ f_msg 2 (wire_vector (ppr_gs p)) ++ f_bytes 3 (ppr_h p).
Definition wire_dy_params (p : dy_params) : list entry :=
  f_int64 1 (dp_sec p) ++ f_int64 2 (dp_chal p) ++ f_bytes 3 (dp_prefix p) ++ f_bytes 4 (dp_base p) ++ f_msg 5 (wire_ped (dp_ped p)).
(** DyVrfPublicKey has the single field commit_prf_key. *)
Definition wire_dy_public (pk : bytes) : list entry := f_bytes 1 pk.

Section VRF.
Variable C : ec.
(** SHA-512: external. *)
Variable sha512 : bytes -> bytes.

Record dy_vrf := { dv_par : dy_params; dv_base : pt C; dv_ped : pedersen }.

(** dy_verifiable_random_function.cc 36-56 Create. The Pedersen object is supplied by the caller. *)
Definition dy_create (p : dy_params) (pd : pedersen) : outcome dy_vrf :=
  if dp_sec p <=? 0 then Err InvalidArgument
  else if dp_chal p <=? 0 then Err InvalidArgument
  else
    let* g := point_of_bytes C (dp_base p) in
    Ok {| dv_par := p; dv_base := g; dv_ped := pd |}.

(** DyVrfPrivateKey, DyVrfGenerateKeysProof. *)
Record dy_private := { dk_key : bytes; dk_open : bytes }.
Record keys_proof := { kp_challenge : bytes; kp_masked_key : bytes; kp_masked_open : bytes }.

(** 111-117, 192-199: statement and first message of the keys proof. *)
Definition keys_statement (p : dy_params) (pk : bytes) : list entry := f_msg 1 (wire_dy_params p) ++ f_msg 2 (wire_dy_public pk).
Definition keys_hash_input (p : dy_params) (pk dummy : bytes) : bytes :=
  framed "DyVerifiableRandomFunction::GenerateChallengeForGenerateKeysProof"%string (keys_statement p pk) (f_bytes 1 dummy).
(** 213-246 GenerateChallengeForGenerateKeysProof. *)
Definition keys_challenge (v : dy_vrf) (pk dummy : bytes) : outcome Z :=
  let* bound := bn_lshift 1 (dp_chal (dv_par v)) in
  random_oracle 512 sha512 (keys_hash_input (dv_par v) pk dummy) bound.

Definition num_gs (v : dy_vrf) : nat := length (pp_gs (pd_par (dv_ped v))).

(** 58-144 GenerateKeyPair; entropy for the key, its opening, and the two dummy values. *)
Definition dy_generate (v : dy_vrf) (rk ro rdk rdo : Z) : outcome (bytes * dy_private * keys_proof) :=
  let p := dv_par v in
  let key := generate_private_key C rk in
  let* (com, opn) := ped_commit (dv_ped v) (repeat key (num_gs v)) ro in
  let* pkb := to_bytes com in
  let* kb := to_bytes key in
  let* ob := to_bytes opn in
  let* bk := bn_lshift (ec_order C) (dp_chal p + dp_sec p) in
  let* bo := bn_lshift (pp_n (pd_par (dv_ped v))) (dp_chal p + dp_sec p) in
  let* dkey := generate_rand_less_than bk rdk in
  let* dopn := generate_rand_less_than bo rdo in
  let* dcom := ped_commit_with_rand (dv_ped v) (repeat dkey (num_gs v)) dopn in
  let* db := to_bytes dcom in
  let* c := keys_challenge v pkb db in
  let* cb := to_bytes c in
  let* mk := to_bytes (dkey + key * c) in
  let* mo := to_bytes (dopn + opn * c) in
  Ok (pkb, {| dk_key := kb; dk_open := ob |}, {| kp_challenge := cb; kp_masked_key := mk; kp_masked_open := mo |}).

(** 146-211 VerifyGenerateKeysProof. *)
Definition dy_verify_keys (v : dy_vrf) (pk : bytes) (pf : keys_proof) : outcome unit :=
  let p := dv_par v in
  let ck := of_bytes pk in
  let c := of_bytes (kp_challenge pf) in
  let mk := of_bytes (kp_masked_key pf) in
  let mo := of_bytes (kp_masked_open pf) in
  let* bound := bn_lshift (ec_order C) (dp_chal p + dp_sec p + 1) in
  if bound <? mk then Err InvalidArgument
  else
    let* mcom := ped_commit_with_rand (dv_ped v) (repeat mk (num_gs v)) mo in
    let* ckc := ped_multiply (dv_ped v) ck c in
    let* inv := bn_mod_inverse ckc (pp_n (pd_par (dv_ped v))) in
    let* dcom := ped_add (dv_ped v) inv mcom in
    let* db := to_bytes dcom in
    let* c' := keys_challenge v pk db in
    if negb (c' =? c) then Err InvalidArgument else Ok tt.

(** 248-269 Apply. *)
Definition dy_apply (v : dy_vrf) (ms : list Z) (sk : dy_private) : outcome (list (pt C)) :=
  let key := of_bytes (dk_key sk) in
  mapM (fun m => let* inv := bn_mod_inverse (m + key) (ec_order C) in Ok (point_mul C (dv_base v) inv)) ms.

(** DyVrfApplyProof: message_1 {commitment, points}, message_2 {masked values, masked opening}. *)
Record apply_proof := { ap_commit : bytes; ap_points : list bytes; ap_masked : list bytes; ap_masked_open : bytes }.

(** 536-541, 592-593: the statement and first message that are hashed. *)
Definition apply_statement (p : dy_params) (pk com : bytes) (evals : list bytes) : list entry :=
  f_msg 1 (wire_dy_params p) ++ f_msg 2 (wire_dy_public pk) ++ f_bytes 3 com ++ f_msg 4 (wire_vector evals).
Definition apply_message_1 (com : bytes) (points : list bytes) : list entry := f_bytes 1 com ++ f_msg 2 (wire_vector points).
Definition apply_hash_input (p : dy_params) (pk com : bytes) (evals : list bytes) (dcom : bytes) (dpoints : list bytes) : bytes :=
  framed "DyVerifiableRandomFunction::GenerateApplyProofChallenge"%string (apply_statement p pk com evals) (apply_message_1 dcom dpoints).
(** 530-569 GenerateApplyProofChallenge. *)
Definition apply_challenge (v : dy_vrf) (evals : list (pt C)) (pk : bytes) (com : Z) (dcom : bytes) (dpoints : list bytes) : outcome Z :=
  let* cb := to_bytes com in
  let* eb := point_vector_to_proto C evals in
  let* bound := bn_lshift 1 (dp_chal (dv_par v)) in
  random_oracle 512 sha512 (apply_hash_input (dv_par v) pk cb eb dcom dpoints) bound.

(** std::vector / absl::Span operator[]: out of range is undefined. *)
Definition at_index {A} (l : list A) (i : nat) : outcome A := match nth_error l i with Some x => Ok x | None => UB end.

(** 271-337 GenerateApplyProofMessage1; [rm i] is the entropy of the i-th dummy message. *)
Definition dummy_values (v : dy_vrf) (ms : list Z) (rdk : Z) (rm : nat -> Z) : outcome (Z * list Z) :=
  let p := dv_par v in
  let* bm := bn_lshift (ec_order C) (dp_sec p + dp_chal p) in
  let* dkey := generate_rand_less_than bm rdk in
  let* dms := mapM (fun i => if (i <? length ms)%nat then let* d := generate_rand_less_than bm (rm i) in Ok (d + dkey) else Ok dkey) (seq 0 (num_gs v)) in
  Ok (dkey, dms).
Definition apply_message1 (v : dy_vrf) (ms : list Z) (evals : list (pt C)) (rdk : Z) (rm : nat -> Z) (rdo : Z)
    : outcome (Z * list (pt C) * (list Z * Z * Z)) :=
  let p := dv_par v in
  let* (dkey, dms) := dummy_values v ms rdk rm in
  let* bo := bn_lshift (pp_n (pd_par (dv_ped v))) (dp_sec p + dp_chal p) in
  let* dopn := generate_rand_less_than bo rdo in
  let* dcom := ped_commit_with_rand (dv_ped v) dms dopn in
  let* dpts := mapM (fun i => let* e := at_index evals i in let* d := at_index dms i in Ok (point_mul C e d)) (seq 0 (length ms)) in
  Ok (dcom, dpts, (dms, dkey, dopn)).

(** 339-375 GenerateApplyProofMessage2. *)
Definition apply_message2 (v : dy_vrf) (ms : list Z) (opn_messages key opn_key : Z) (dms : list Z) (dkey dopn c : Z) : outcome (list Z * Z) :=
  let* masked := mapM (fun i => if (i <? length ms)%nat
                                then let* d := at_index dms i in let* m := at_index ms i in Ok (d + (m + key) * c)
                                else Ok (dkey + key * c)) (seq 0 (num_gs v)) in
  Ok (masked, dopn + (opn_key + opn_messages) * c).

(** 377-420 GenerateApplyProof. *)
Definition dy_prove_apply (v : dy_vrf) (ms : list Z) (evals : list (pt C)) (pk : bytes) (sk : dy_private) (com opn : Z)
    (rdk : Z) (rm : nat -> Z) (rdo : Z) : outcome apply_proof :=
  let key := of_bytes (dk_key sk) in
  let opn_key := of_bytes (dk_open sk) in
  let* (dcom, dpts, st) := apply_message1 v ms evals rdk rm rdo in
  let '(dms, dkey, dopn) := st in
  let* dcb := to_bytes dcom in
  let* dpb := point_vector_to_proto C dpts in
  let* c := apply_challenge v evals pk com dcb dpb in
  let* (masked, mopn) := apply_message2 v ms opn key opn_key dms dkey dopn c in
  let* mb := bignum_vector_to_proto masked in
  let* mob := to_bytes mopn in
  Ok {| ap_commit := dcb; ap_points := dpb; ap_masked := mb; ap_masked_open := mob |}.

(** 489-507: sigma_i^masked_i = dummy_i * g^challenge for every evaluation. *)
Fixpoint check_evals (gc : pt C) (evals : list (pt C)) (masked : list Z) (dpts : list (pt C)) : outcome unit :=
  match evals with
  | [] => Ok tt
  | e :: evals' =>
      match masked, dpts with
      | m :: masked', d :: dpts' =>
          if negb (peqb C (point_mul C e m) (padd C d gc)) then Err InvalidArgument else check_evals gc evals' masked' dpts'
      | _, _ => UB
      end
  end.

(** 422-528 VerifyApplyProof. *)
Definition dy_verify_apply (v : dy_vrf) (evals : list (pt C)) (pk : bytes) (com : Z) (pf : apply_proof) : outcome unit :=
  let p := dv_par v in
  let ck := of_bytes pk in
  let dcom := of_bytes (ap_commit pf) in
  let* dpts := parse_point_vector C (ap_points pf) in
  let masked := parse_bignum_vector (ap_masked pf) in
  let mopn := of_bytes (ap_masked_open pf) in
  if (num_gs v <? length evals)%nat then Err InvalidArgument
  else if negb (length evals =? length dpts)%nat then Err InvalidArgument
  else if negb (num_gs v =? length masked)%nat then Err InvalidArgument
  else
    let* c := apply_challenge v evals pk com (ap_commit pf) (ap_points pf) in
    if existsb (fun m => bit_length (ec_order C) + dp_chal p + dp_sec p + 2 <? bit_length m) masked then Err InvalidArgument
    else
      let* _ := check_evals (point_mul C (dv_base v) c) evals masked dpts in
      let* both := ped_add (dv_ped v) com ck in
      let* bc := ped_multiply (dv_ped v) both c in
      let* mcom := ped_commit_with_rand (dv_ped v) masked mopn in
      let* rhs := ped_add (dv_ped v) dcom bc in
      if negb (mcom =? rhs) then Err InvalidArgument else Ok tt.
End VRF.
