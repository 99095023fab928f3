(** Models crypto/dodis_yampolskiy_prf/bb_oblivious_signature.{h,cc}: oblivious evaluation of Boneh-Boyen signatures. Bit counts (int64 in
    the parameters, int in BigNum::Lshift) are unbounded integers here; num_messages (uint64) is a natural number; the null checks of
    Create are not modelled. *)
From Verif Require Import Base M_BigNum M_Num M_EC M_Proto M_CS M_Pedersen M_Wire M_VRF.
From Coq Require Import String List. Import ListNotations. Open Scope list_scope. Open Scope Z_scope.

(** ** Messages of bb_oblivious_signature.proto *)
Record bb_params := { bp_sec : Z; bp_chal : Z; bp_prefix : bytes; bp_base : bytes; bp_cs : cs_public_proto; bp_ped : ped_proto }.
Record bb_public := { bpk_k : list cs_ct_proto; bpk_y : list cs_ct_proto }.
Record bb_private := { bsk_k : bytes; bsk_y : bytes }.
Record bb_request := { rq_num : nat; rq_cts : list cs_ct_proto }.

(** RequestProof: Statement, Message1, Message2 and the proof itself. *)
Record req_statement := { st_par : bb_params; st_pk : bb_public; st_messages : bytes; st_rs : bytes; st_as : list bytes; st_bs : bytes;
                          st_alphas : bytes; st_gammas : bytes; st_request : bb_request }.
Record req_message1 := { m1_messages : bytes; m1_rs : bytes; m1_as : list bytes; m1_bs : bytes; m1_alphas_1 : bytes; m1_alphas_2 : bytes;
                         m1_gammas_1 : bytes; m1_gammas_2 : bytes; m1_cts : list cs_ct_proto }.
Record req_message2 := { m2_messages : list bytes; m2_messages_open : bytes; m2_rs : list bytes; m2_rs_open : bytes; m2_as : list bytes;
                         m2_as_open : list bytes; m2_bs : list bytes; m2_bs_open : bytes; m2_alphas : list bytes; m2_alphas_1 : bytes;
                         m2_alphas_2 : bytes; m2_gammas : list bytes; m2_gammas_1 : bytes; m2_gammas_2 : bytes; m2_enc : list bytes }.
Record req_proof := { rp_as : list bytes; rp_bs : bytes; rp_alphas : bytes; rp_gammas : bytes; rp_challenge : bytes; rp_m2 : req_message2 }.

(** ResponseProof. *)
Record rsp_statement := { ss_par : bb_params; ss_pk : bb_public; ss_messages : bytes; ss_rs : bytes; ss_request : bb_request;
                          ss_response : list bytes; ss_betas : bytes }.
Record rsp_message1 := { n1_ys : list bytes; n1_betas : bytes; n1_gs : list bytes; n1_es : list (list bytes) }.
Record rsp_proof := { sp_betas : bytes; sp_challenge : bytes; sp_xs : list bytes; sp_mbetas : list bytes; sp_open : bytes }.

(** ** Their encodings (camenisch_shoup.proto, bb_oblivious_signature.proto) *)
Definition wire_cs_public (p : cs_public_proto) : list entry :=
  f_bytes 1 (M_CS.pp_n p) ++ f_bytes 2 (pp_g p) ++ f_msg 3 (wire_vector (pp_ys p)) ++ f_int64 4 (pp_s p).
Definition wire_cs_ct (c : cs_ct_proto) : list entry := f_bytes 1 (cp_u c) ++ f_msg 2 (wire_vector (cp_es c)).
Definition wire_bb_params (p : bb_params) : list entry :=
  f_int64 1 (bp_sec p) ++ f_int64 2 (bp_chal p) ++ f_bytes 3 (bp_prefix p) ++ f_bytes 4 (bp_base p) ++
  f_msg 5 (wire_cs_public (bp_cs p)) ++ f_msg 6 (wire_ped (bp_ped p)).
Definition wire_bb_public (pk : bb_public) : list entry := f_rep_msg 1 (map wire_cs_ct (bpk_k pk)) ++ f_rep_msg 2 (map wire_cs_ct (bpk_y pk)).
Definition wire_request (r : bb_request) : list entry := f_int64 1 (Z.of_nat (rq_num r)) ++ f_rep_msg 3 (map wire_cs_ct (rq_cts r)).
Definition wire_response (r : list bytes) : list entry := f_msg 1 (wire_vector r).
Definition wire_req_statement (s : req_statement) : list entry :=
  f_msg 1 (wire_bb_params (st_par s)) ++ f_msg 2 (wire_bb_public (st_pk s)) ++ f_bytes 3 (st_messages s) ++ f_bytes 4 (st_rs s) ++
  f_msg 5 (wire_vector (st_as s)) ++ f_bytes 6 (st_bs s) ++ f_bytes 7 (st_alphas s) ++ f_bytes 8 (st_gammas s) ++ f_msg 9 (wire_request (st_request s)).
Definition wire_req_message1 (m : req_message1) : list entry :=
  f_bytes 1 (m1_messages m) ++ f_bytes 2 (m1_rs m) ++ f_msg 3 (wire_vector (m1_as m)) ++ f_bytes 4 (m1_bs m) ++ f_bytes 5 (m1_alphas_1 m) ++
  f_bytes 6 (m1_alphas_2 m) ++ f_bytes 7 (m1_gammas_1 m) ++ f_bytes 8 (m1_gammas_2 m) ++ f_rep_msg 10 (map wire_cs_ct (m1_cts m)).
Definition wire_rsp_statement (s : rsp_statement) : list entry :=
  f_msg 1 (wire_bb_params (ss_par s)) ++ f_msg 2 (wire_bb_public (ss_pk s)) ++ f_bytes 3 (ss_messages s) ++ f_bytes 4 (ss_rs s) ++
  f_msg 5 (wire_request (ss_request s)) ++ f_msg 6 (wire_response (ss_response s)) ++ f_bytes 7 (ss_betas s).
Definition wire_rsp_message1 (m : rsp_message1) : list entry :=
  f_msg 1 (wire_vector (n1_ys m)) ++ f_bytes 2 (n1_betas m) ++ f_msg 4 (wire_vector (n1_gs m)) ++ f_rep_msg 5 (map wire_vector (n1_es m)).

(** bb_oblivious_signature.cc 1517-1540 and 1567-1590: both functions start from the same string. *)
Definition bb_domain : String.string := "BbObliviousSignature::GenerateResponseProofChallenge"%string.
Definition req_hash_input (s : req_statement) (m : req_message1) : bytes := framed bb_domain (wire_req_statement s) (wire_req_message1 m).
Definition rsp_hash_input (s : rsp_statement) (m : rsp_message1) : bytes := framed bb_domain (wire_rsp_statement s) (wire_rsp_message1 m).

(** ** Loops and ranges *)
Fixpoint foldM {A B} (f : A -> B -> outcome A) (acc : A) (l : list B) : outcome A :=
  match l with [] => Ok acc | x :: l' => let* acc' := f acc x in foldM f acc' l' end.
Fixpoint map2 {A B R} (f : A -> B -> R) (xs : list A) (ys : list B) : list R :=
  match xs, ys with x :: xs', y :: ys' => f x y :: map2 f xs' ys' | _, _ => [] end.
(** std::vector v(w.begin() + start, w.begin() + stop): undefined outside the range. *)
Definition slice {A} (l : list A) (start stop : nat) : outcome (list A) :=
  if (start <=? stop)%nat && (stop <=? length l)%nat then Ok (firstn (stop - start) (skipn start l)) else UB.
(** A vector of zeros with one entry replaced. *)
Definition slot (len i : nat) (v : Z) : list Z := map (fun j => if (j =? i)%nat then v else 0) (seq 0 len).
(** (total + len - 1) / len: number of ciphertexts for [total] messages. *)
Definition num_cts (len total : nat) : nat := ((total + len - 1) / len)%nat.

Section BB.
Variable two_k_ary_flag : bool.
Variable C : ec.
(** SHA-512: external. *)
Variable sha512 : bytes -> bytes.
Notation q := (ec_order C).

Record bb := { bb_par : bb_params; bb_base : pt C; bb_cs : cs_public; bb_ped : pedersen }.

(** 2^(2 challenge_length + 2 security + extra) q^3: lines 138-144, 1163-1169, 1353-1356. *)
Definition cube_bound (p : bb_params) (extra : Z) : outcome Z :=
  let* b := bn_lshift 1 (2 * bp_chal p + 2 * bp_sec p + extra) in Ok (b * q * q * q).

(** 110-176 Create. The Camenisch-Shoup and Pedersen objects are supplied by the caller. *)
Definition bb_create (p : bb_params) (cs : cs_public) (pd : pedersen) : outcome bb :=
  if bp_sec p <=? 0 then Err InvalidArgument
  else if bp_chal p <=? 0 then Err InvalidArgument
  else
    let* bound := cube_bound p 1 in
    if cs_n_to_s cs <? bound then Err InvalidArgument
    else if pp_n (pd_par pd) <? bound then Err InvalidArgument
    else
      let* g := point_of_bytes C (bp_base p) in
      Ok {| bb_par := p; bb_base := g; bb_cs := cs; bb_ped := pd |}.

Section Object.
Variable b : bb.
Notation par := (bb_par b).
Notation cs := (bb_cs b).
Notation ped := (bb_ped b).
Notation vlen := (cs_len cs).
Notation num_gs := (length (pp_gs (pd_par ped))).
Notation t := (bp_chal par + bp_sec par).

(** 178-216 GenerateKeys; entropy for k, y and the encryptions in each slot. *)
Definition bb_generate_keys (rk ry : Z) (ek ey : nat -> list Z) : outcome (bb_public * bb_private) :=
  let k := generate_private_key C rk in
  let y := generate_private_key C ry in
  let* kb := to_bytes k in
  let* yb := to_bytes y in
  let* cts := mapM (fun i =>
    let* ck := cs_encrypt two_k_ary_flag cs (slot vlen i k) (ek i) in
    let* pk := cs_ct_to_proto ck in
    let* cy := cs_encrypt two_k_ary_flag cs (slot vlen i y) (ey i) in
    let* py := cs_ct_to_proto cy in
    Ok (pk, py)) (seq 0 vlen) in
  Ok ({| bpk_k := map fst cts; bpk_y := map snd cts |}, {| bsk_k := kb; bsk_y := yb |}).

(** 92-102: one iteration of the inner loop, slot j of the batch that starts at [start]. *)
Definition add_slot (ks ys : list cs_ciphertext) (as_ gammas : list Z) (start : nat) (ct : cs_ciphertext) (j : nat) : outcome cs_ciphertext :=
  let* k := at_index ks j in
  let* a := at_index as_ (start + j) in
  let* ka := cs_multiply cs k a in
  let* ct1 := cs_add cs ct ka in
  let* y := at_index ys j in
  let* g := at_index gammas (start + j) in
  let* yg := cs_multiply cs y g in
  cs_add cs ct1 yg.
(** 55-106 GenerateHomomorphicCsCiphertexts. *)
Definition homomorphic_cts (ms as_ gammas rnd : list Z) (ks ys : list cs_ciphertext) : outcome (list cs_ciphertext) :=
  if (vlen =? 0)%nat then UB
  else
    mapM (fun i =>
      let start := (i * vlen)%nat in
      let size := Nat.min vlen (length ms - start) in
      let* batch := slice ms start (start + size) in
      let* r := at_index rnd i in
      let* ct := cs_encrypt_with_rand two_k_ary_flag cs batch r in
      foldM (add_slot ks ys as_ gammas start) ct (seq 0 size)) (seq 0 (num_cts vlen (length ms))).

(** 271-289, 951-968: parse the public key. *)
Definition parse_public (pk : bb_public) : outcome (list (cs_ciphertext * cs_ciphertext)) :=
  mapM (fun i =>
    let* ek := at_index (bpk_k pk) i in
    let* k := cs_parse_ct cs ek in
    let* ey := at_index (bpk_y pk) i in
    let* y := cs_parse_ct cs ey in
    Ok (k, y)) (seq 0 vlen).

(** The values the request proof is about; the same collection is used for the secrets, for the dummies and for the masked dummies. *)
Record req_values := { v_messages : list Z; v_messages_open : Z; v_rs : list Z; v_rs_open : Z; v_as : list Z; v_as_open : list Z;
                       v_bs : list Z; v_bs_open : Z; v_alphas : list Z; v_alphas_1 : Z; v_alphas_2 : Z;
                       v_gammas : list Z; v_gammas_1 : Z; v_gammas_2 : Z; v_enc : list Z }.
(** What is computed from them: commitments and ciphertexts. *)
Record req_first := { f_messages : Z; f_rs : Z; f_as : list Z; f_bs : Z; f_alphas_1 : Z; f_alphas_2 : Z; f_gammas_1 : Z; f_gammas_2 : Z;
                      f_cts : list cs_ciphertext }.

(** 389-393, 503-509: multiply the accumulator by the product of the commitments raised to the exponents. *)
Fixpoint accumulate (acc : Z) (cs es : list Z) : outcome Z :=
  match cs, es with
  | c :: cs', e :: es' => let* p := ped_multiply ped c e in let* acc' := ped_add ped acc p in accumulate acc' cs' es'
  | _, _ => Ok acc
  end.
(** 932-940: the same loop with the arguments of Add the other way round. *)
Fixpoint accumulate_verify (acc : Z) (cs es : list Z) : outcome Z :=
  match cs, es with
  | c :: cs', e :: es' => let* p := ped_multiply ped c e in let* acc' := ped_add ped p acc in accumulate_verify acc' cs' es'
  | _, _ => Ok acc
  end.
(** 394-397: the opening of the product. *)
Fixpoint dot (acc : Z) (os es : list Z) : Z :=
  match os, es with o :: os', e :: es' => dot (acc + o * e) os' es' | _, _ => acc end.

(** 482-489, 904-913: one commitment per a, in its own slot. *)
Definition commit_each (as_ opens : list Z) (len : nat) : outcome (list Z) :=
  mapM (fun i => let* a := at_index as_ i in let* o := at_index opens i in ped_commit_with_rand ped (slot num_gs i a) o) (seq 0 len).

(** 459-517: the first message from the dummy values. *)
Definition composites (commit_as : list Z) (keys : list (cs_ciphertext * cs_ciphertext)) (v : req_values) : outcome req_first :=
  let* cm := ped_commit_with_rand ped (v_messages v) (v_messages_open v) in
  let* cr := ped_commit_with_rand ped (v_rs v) (v_rs_open v) in
  let* ca := commit_each (v_as v) (v_as_open v) (length (v_messages v)) in
  let* cb := ped_commit_with_rand ped (v_bs v) (v_bs_open v) in
  let* al1 := ped_commit_with_rand ped (v_alphas v) (v_alphas_1 v) in
  let* ga1 := ped_commit_with_rand ped (v_gammas v) (v_gammas_1 v) in
  let* al0 := ped_commit_with_rand ped (repeat 0 num_gs) (v_alphas_2 v) in
  let* ga0 := ped_commit_with_rand ped (repeat 0 num_gs) (v_gammas_2 v) in
  let* al2 := accumulate al0 commit_as (v_messages v) in
  let* ga2 := accumulate ga0 commit_as (v_rs v) in
  let* cts := homomorphic_cts (map2 (fun al x => al + x * q) (v_alphas v) (v_bs v)) (v_as v) (v_gammas v) (v_enc v) (map fst keys) (map snd keys) in
  Ok {| f_messages := cm; f_rs := cr; f_as := ca; f_bs := cb; f_alphas_1 := al1; f_alphas_2 := al2; f_gammas_1 := ga1; f_gammas_2 := ga2; f_cts := cts |}.

(** 528-546 and 1028-1038, 1070-1071. *)
Definition first_to_proto (f : req_first) : outcome req_message1 :=
  let* cm := to_bytes (f_messages f) in
  let* cr := to_bytes (f_rs f) in
  let* ca := bignum_vector_to_proto (f_as f) in
  let* cb := to_bytes (f_bs f) in
  let* al1 := to_bytes (f_alphas_1 f) in
  let* al2 := to_bytes (f_alphas_2 f) in
  let* ga1 := to_bytes (f_gammas_1 f) in
  let* ga2 := to_bytes (f_gammas_2 f) in
  let* cts := mapM cs_ct_to_proto (f_cts f) in
  Ok {| m1_messages := cm; m1_rs := cr; m1_as := ca; m1_bs := cb; m1_alphas_1 := al1; m1_alphas_2 := al2; m1_gammas_1 := ga1; m1_gammas_2 := ga2; m1_cts := cts |}.

(** 1508-1541 GenerateRequestProofChallenge. *)
Definition req_challenge (s : req_statement) (m : req_message1) : outcome Z :=
  let* bound := bn_lshift 1 (bp_chal par) in
  random_oracle 512 sha512 (req_hash_input s m) bound.

(** Entropy of one request: for the secrets (e_) and for the dummies (d_). *)
Record req_entropy := { e_a : nat -> Z; e_b : nat -> Z; e_enc : nat -> Z; e_ao : nat -> Z; e_bo : Z; e_zal : Z; e_zga : Z;
                        d_m : nat -> Z; d_r : nat -> Z; d_a : nat -> Z; d_ao : nat -> Z; d_b : nat -> Z; d_al : nat -> Z; d_ga : nat -> Z;
                        d_mo : Z; d_ro : Z; d_bo : Z; d_al1 : Z; d_al2 : Z; d_ga1 : Z; d_ga2 : Z; d_enc : nat -> Z }.

Definition draws (bound : Z) (f : nat -> Z) (count : nat) : outcome (list Z) := mapM (fun i => generate_rand_less_than bound (f i)) (seq 0 count).

(** 243-269: as, bs, alphas, gammas; the masked messages are computed from them where they are used. *)
Definition draw_masks (ms rs : list Z) (e : req_entropy) : outcome (list Z * list Z) :=
  let as_ := map (fun i => generate_private_key C (e_a e i)) (seq 0 (length ms)) in
  let* bound := bn_lshift (q * q) t in
  let* bs := draws bound (e_b e) (length ms) in
  Ok (as_, bs).

(** 321-398: the commitments to as, bs, alphas and gammas and their openings. *)
Record req_commits := { rc_as : list Z; rc_bs : Z; rc_alphas : Z; rc_gammas : Z }.
Definition commit_secrets (ms rs as_ bs : list Z) (om or_ : Z) (enc : list Z) (e : req_entropy) : outcome (req_commits * req_values) :=
  let* cas := mapM (fun i => let* a := at_index as_ i in ped_commit ped (slot num_gs i a) (e_ao e i)) (seq 0 (length as_)) in
  let* (cb, ob) := ped_commit ped bs (e_bo e) in
  let* (al0, oal) := ped_commit ped (repeat 0 num_gs) (e_zal e) in
  let* (ga0, oga) := ped_commit ped (repeat 0 num_gs) (e_zga e) in
  let* al := accumulate al0 (map fst cas) ms in
  let* ga := accumulate ga0 (map fst cas) rs in
  Ok ({| rc_as := map fst cas; rc_bs := cb; rc_alphas := al; rc_gammas := ga |},
      {| v_messages := ms; v_messages_open := om; v_rs := rs; v_rs_open := or_; v_as := as_; v_as_open := map snd cas;
         v_bs := bs; v_bs_open := ob; v_alphas := map2 Z.mul ms as_; v_alphas_1 := dot oal (map snd cas) ms; v_alphas_2 := oal;
         v_gammas := map2 Z.mul rs as_; v_gammas_1 := dot oga (map snd cas) rs; v_gammas_2 := oga; v_enc := enc |}).

(** 400-471: the dummy values. *)
Definition draw_dummies (len : nat) (e : req_entropy) : outcome req_values :=
  let* bm := bn_lshift q t in
  let* bsb := bn_lshift (q * q) t in
  let* bb_ := bn_lshift bsb t in
  let bal := bm * q in
  let* bo := bn_lshift (pp_n (pd_par ped)) t in
  let bho := bo * q * Z.of_nat (len + 1) in
  let* benc := bn_lshift (cs_n cs) t in
  let* dm := draws bm (d_m e) len in
  let* dr := draws bm (d_r e) len in
  let* da := draws bm (d_a e) len in
  let* dao := draws bo (d_ao e) len in
  let* db := draws bb_ (d_b e) len in
  let* dal := draws bal (d_al e) len in
  let* dga := draws bal (d_ga e) len in
  let* dmo := generate_rand_less_than bo (d_mo e) in
  let* dro := generate_rand_less_than bo (d_ro e) in
  let* dbo := generate_rand_less_than bo (d_bo e) in
  let* dal1 := generate_rand_less_than bho (d_al1 e) in
  let* dal2 := generate_rand_less_than bo (d_al2 e) in
  let* dga1 := generate_rand_less_than bho (d_ga1 e) in
  let* dga2 := generate_rand_less_than bo (d_ga2 e) in
  let* denc := draws benc (d_enc e) (num_cts vlen len) in
  Ok {| v_messages := dm; v_messages_open := dmo; v_rs := dr; v_rs_open := dro; v_as := da; v_as_open := dao; v_bs := db; v_bs_open := dbo;
        v_alphas := dal; v_alphas_1 := dal1; v_alphas_2 := dal2; v_gammas := dga; v_gammas_1 := dga1; v_gammas_2 := dga2; v_enc := denc |}.

(** 551-597: dummy + challenge * secret. *)
Definition mask (c : Z) (d w : Z) : Z := d + c * w.
Definition masked_values (c : Z) (d w : req_values) : req_values :=
  {| v_messages := map2 (mask c) (v_messages d) (v_messages w); v_messages_open := mask c (v_messages_open d) (v_messages_open w);
     v_rs := map2 (mask c) (v_rs d) (v_rs w); v_rs_open := mask c (v_rs_open d) (v_rs_open w);
     v_as := map2 (mask c) (v_as d) (v_as w); v_as_open := map2 (mask c) (v_as_open d) (v_as_open w);
     v_bs := map2 (mask c) (v_bs d) (v_bs w); v_bs_open := mask c (v_bs_open d) (v_bs_open w);
     v_alphas := map2 (mask c) (v_alphas d) (v_alphas w); v_alphas_1 := mask c (v_alphas_1 d) (v_alphas_1 w); v_alphas_2 := mask c (v_alphas_2 d) (v_alphas_2 w);
     v_gammas := map2 (mask c) (v_gammas d) (v_gammas w); v_gammas_1 := mask c (v_gammas_1 d) (v_gammas_1 w); v_gammas_2 := mask c (v_gammas_2 d) (v_gammas_2 w);
     v_enc := map2 (mask c) (v_enc d) (v_enc w) |}.

(** 607-639: message 2. *)
Definition values_to_proto (v : req_values) : outcome req_message2 :=
  let* a1 := bignum_vector_to_proto (v_messages v) in let* a2 := to_bytes (v_messages_open v) in
  let* a3 := bignum_vector_to_proto (v_rs v) in let* a4 := to_bytes (v_rs_open v) in
  let* a5 := bignum_vector_to_proto (v_as v) in let* a6 := bignum_vector_to_proto (v_as_open v) in
  let* a7 := bignum_vector_to_proto (v_bs v) in let* a8 := to_bytes (v_bs_open v) in
  let* a9 := bignum_vector_to_proto (v_alphas v) in let* a10 := to_bytes (v_alphas_1 v) in let* a11 := to_bytes (v_alphas_2 v) in
  let* a12 := bignum_vector_to_proto (v_gammas v) in let* a13 := to_bytes (v_gammas_1 v) in let* a14 := to_bytes (v_gammas_2 v) in
  let* a16 := bignum_vector_to_proto (v_enc v) in
  Ok {| m2_messages := a1; m2_messages_open := a2; m2_rs := a3; m2_rs_open := a4; m2_as := a5; m2_as_open := a6; m2_bs := a7; m2_bs_open := a8;
        m2_alphas := a9; m2_alphas_1 := a10; m2_alphas_2 := a11; m2_gammas := a12; m2_gammas_1 := a13; m2_gammas_2 := a14; m2_enc := a16 |}.
(** 795-827: parsing it. *)
Definition values_of_proto (m : req_message2) : req_values :=
  {| v_messages := parse_bignum_vector (m2_messages m); v_messages_open := of_bytes (m2_messages_open m);
     v_rs := parse_bignum_vector (m2_rs m); v_rs_open := of_bytes (m2_rs_open m);
     v_as := parse_bignum_vector (m2_as m); v_as_open := parse_bignum_vector (m2_as_open m);
     v_bs := parse_bignum_vector (m2_bs m); v_bs_open := of_bytes (m2_bs_open m);
     v_alphas := parse_bignum_vector (m2_alphas m); v_alphas_1 := of_bytes (m2_alphas_1 m); v_alphas_2 := of_bytes (m2_alphas_2 m);
     v_gammas := parse_bignum_vector (m2_gammas m); v_gammas_1 := of_bytes (m2_gammas_1 m); v_gammas_2 := of_bytes (m2_gammas_2 m);
     v_enc := parse_bignum_vector (m2_enc m) |}.

(** 218-643 GenerateRequestAndProof: request, proof and private state (the serialized as). *)
Definition bb_request_and_proof (ms rs : list Z) (pk : bb_public) (cm om cr or_ : Z) (e : req_entropy) : outcome (bb_request * req_proof * list bytes) :=
  if (num_gs <? length ms)%nat then Err InvalidArgument
  else if negb (length rs =? length ms)%nat then Err InvalidArgument
  else
    let* (as_, bs) := draw_masks ms rs e in
    let masked := map2 (fun al x => al + x * q) (map2 Z.mul ms as_) bs in
    let* keys := parse_public pk in
    if (vlen =? 0)%nat then UB
    else
      let* enc := draws (cs_n cs) (e_enc e) (num_cts vlen (length ms)) in
      let* cts := homomorphic_cts masked as_ (map2 Z.mul rs as_) enc (map fst keys) (map snd keys) in
      let* state := bignum_vector_to_proto as_ in
      let* ctsb := mapM cs_ct_to_proto cts in
      let rq := {| rq_num := length ms; rq_cts := ctsb |} in
      let* (rc, w) := commit_secrets ms rs as_ bs om or_ enc e in
      let* d := draw_dummies (length ms) e in
      let* f := composites (rc_as rc) keys d in
      let* cmb := to_bytes cm in
      let* crb := to_bytes cr in
      let* cas := bignum_vector_to_proto (rc_as rc) in
      let* cbb := to_bytes (rc_bs rc) in
      let* alb := to_bytes (rc_alphas rc) in
      let* gab := to_bytes (rc_gammas rc) in
      let* m1 := first_to_proto f in
      let* c := req_challenge {| st_par := par; st_pk := pk; st_messages := cmb; st_rs := crb; st_as := cas; st_bs := cbb; st_alphas := alb;
                                 st_gammas := gab; st_request := rq |} m1 in
      let* chb := to_bytes c in
      let* m2 := values_to_proto (masked_values c d w) in
      Ok (rq, {| rp_as := cas; rp_bs := cbb; rp_alphas := alb; rp_gammas := gab; rp_challenge := chb; rp_m2 := m2 |}, state).

(** 894-977: the masked dummy composites. *)
Definition masked_composites (commit_as : list Z) (pk : bb_public) (v : req_values) : outcome req_first :=
  let* cm := ped_commit_with_rand ped (v_messages v) (v_messages_open v) in
  let* cr := ped_commit_with_rand ped (v_rs v) (v_rs_open v) in
  let* ca := commit_each (v_as v) (v_as_open v) (length commit_as) in
  let* cb := ped_commit_with_rand ped (v_bs v) (v_bs_open v) in
  let* al1 := ped_commit_with_rand ped (v_alphas v) (v_alphas_1 v) in
  let* ga1 := ped_commit_with_rand ped (v_gammas v) (v_gammas_1 v) in
  let* al0 := ped_commit_with_rand ped (repeat 0 num_gs) (v_alphas_2 v) in
  let* ga0 := ped_commit_with_rand ped (repeat 0 num_gs) (v_gammas_2 v) in
  let* al2 := accumulate_verify al0 commit_as (v_messages v) in
  let* ga2 := accumulate_verify ga0 commit_as (v_rs v) in
  let* keys := parse_public pk in
  let* cts := homomorphic_cts (map2 (fun al x => al + x * q) (v_alphas v) (v_bs v)) (v_as v) (v_gammas v) (v_enc v) (map fst keys) (map snd keys) in
  Ok {| f_messages := cm; f_rs := cr; f_as := ca; f_bs := cb; f_alphas_1 := al1; f_alphas_2 := al2; f_gammas_1 := ga1; f_gammas_2 := ga2; f_cts := cts |}.

(** 983-1026: masked commitment over the original commitment to the challenge. *)
Definition power_inverse (com c : Z) : outcome Z :=
  let* p := ped_multiply ped com c in bn_mod_inverse p (pp_n (pd_par ped)).
Definition unmask (masked com c : Z) : outcome Z :=
  let* i := power_inverse com c in ped_add ped masked i.
(** 1040-1069: the same for a ciphertext. *)
Definition unmask_ct (masked ct : cs_ciphertext) (c : Z) : outcome cs_ciphertext :=
  let* p := cs_multiply cs ct c in
  let* u := bn_mod_inverse (ct_u p) (cs_modulus cs) in
  let* es := mapM (fun e => bn_mod_inverse e (cs_modulus cs)) (ct_es p) in
  cs_add cs masked {| ct_u := u; ct_es := es |}.
(** 979-1072: the first message recovered from the masked values. *)
Definition unmask_all (m : req_first) (cm cr : Z) (cas : list Z) (cb cal cga : Z) (cts : list cs_ciphertext) (c : Z) : outcome req_first :=
  let* dm := unmask (f_messages m) cm c in
  let* dr := unmask (f_rs m) cr c in
  let* da := mapM (fun i => let* com := at_index cas i in let* x := at_index (f_as m) i in unmask x com c) (seq 0 (length cas)) in
  let* db := unmask (f_bs m) cb c in
  let* ial := power_inverse cal c in
  let* al1 := ped_add ped (f_alphas_1 m) ial in
  let* al2 := ped_add ped (f_alphas_2 m) ial in
  let* iga := power_inverse cga c in
  let* ga1 := ped_add ped (f_gammas_1 m) iga in
  let* ga2 := ped_add ped (f_gammas_2 m) iga in
  let* dc := mapM (fun i => let* x := at_index (f_cts m) i in let* ct := at_index cts i in unmask_ct x ct c) (seq 0 (length cts)) in
  Ok {| f_messages := dm; f_rs := dr; f_as := da; f_bs := db; f_alphas_1 := al1; f_alphas_2 := al2; f_gammas_1 := ga1; f_gammas_2 := ga2; f_cts := dc |}.

(** 829-892: the range checks; masked_dummy_rs has a bound (833) but is not compared with it. *)
Definition values_in_bounds (v : req_values) : outcome bool :=
  let* bm := bn_lshift q (t + 1) in
  let* bb_ := bn_lshift (q * q) (2 * bp_chal par + 2 * bp_sec par + 1) in
  Ok (forallb (fun x => x <? bm) (v_messages v) && forallb (fun x => x <? bm) (v_as v) && forallb (fun x => x <? bb_) (v_bs v) &&
      forallb (fun x => x <? bm * q) (v_alphas v) && forallb (fun x => x <? bm * q) (v_gammas v)).

(** 645-1090 VerifyRequest. *)
Definition bb_verify_request (pk : bb_public) (rq : bb_request) (pf : req_proof) (cm cr : Z) : outcome unit :=
  let m2 := rp_m2 pf in
  if (num_gs <? rq_num rq)%nat then Err InvalidArgument
  else if negb (length (rp_as pf) =? rq_num rq)%nat then Err InvalidArgument
  else if negb (length (m2_messages m2) =? rq_num rq)%nat then Err InvalidArgument
  else if negb (length (m2_rs m2) =? rq_num rq)%nat then Err InvalidArgument
  else if negb (length (m2_as m2) =? rq_num rq)%nat then Err InvalidArgument
  else if negb (length (m2_bs m2) =? rq_num rq)%nat then Err InvalidArgument
  else if negb (length (m2_alphas m2) =? rq_num rq)%nat then Err InvalidArgument
  else if negb (length (m2_gammas m2) =? rq_num rq)%nat then Err InvalidArgument
  else if (vlen =? 0)%nat then UB
  else if negb (length (rq_cts rq) =? num_cts vlen (rq_num rq))%nat then Err InvalidArgument
  else if negb (length (m2_enc m2) =? num_cts vlen (rq_num rq))%nat then Err InvalidArgument
  else
    let* cmb := to_bytes cm in
    let* crb := to_bytes cr in
    let st := {| st_par := par; st_pk := pk; st_messages := cmb; st_rs := crb; st_as := rp_as pf; st_bs := rp_bs pf; st_alphas := rp_alphas pf;
                 st_gammas := rp_gammas pf; st_request := rq |} in
    let cas := parse_bignum_vector (rp_as pf) in
    let* cts := mapM (cs_parse_ct cs) (rq_cts rq) in
    let c := of_bytes (rp_challenge pf) in
    let v := values_of_proto m2 in
    let* inb := values_in_bounds v in
    if negb inb then Err InvalidArgument
    else
      let* m := masked_composites cas pk v in
      let* f := unmask_all m cm cr cas (of_bytes (rp_bs pf)) (of_bytes (rp_alphas pf)) (of_bytes (rp_gammas pf)) cts c in
      let* m1 := first_to_proto f in
      let* c' := req_challenge st m1 in
      if negb (c' =? c) then Err InvalidArgument else Ok tt.

(** ** Response *)

(** 1543-1590 GenerateResponseProofChallenge. *)
Definition rsp_challenge (pk : bb_public) (cm cr : Z) (rq : bb_request) (rsp : list bytes) (cb : Z) (m : rsp_message1) : outcome Z :=
  let* bound := bn_lshift 1 (bp_chal par) in
  let* cmb := to_bytes cm in
  let* crb := to_bytes cr in
  let* cbb := to_bytes cb in
  random_oracle 512 sha512 (rsp_hash_input {| ss_par := par; ss_pk := pk; ss_messages := cmb; ss_rs := crb; ss_request := rq;
                                              ss_response := rsp; ss_betas := cbb |} m) bound.

(** 1219-1224, 1394-1399: size of the i-th batch; the subtraction of unsigned numbers wraps round when the batch starts beyond the end. *)
Definition batch_size (num i : nat) : nat := if (num <? i * vlen)%nat then vlen else Nat.min vlen (num - i * vlen).

(** 1216-1253: u^dummy_x_j (1+n)^dummy_beta_j for the slots of one ciphertext. *)
Definition dummy_es (csk : cs_private) (num : nat) (dbetas dxs : list Z) (cts : list cs_ciphertext) (i : nat) : outcome (list Z) :=
  let start := (i * vlen)%nat in
  let size := batch_size num i in
  let* batch := slice dbetas start (start + size) in
  let* ict := cs_encrypt_with_rand two_k_ary_flag (cs_pub csk) batch 0 in
  let* ct := at_index cts i in
  mapM (fun j =>
    let* x := at_index dxs j in
    let* ux := bn_mod_exp (ct_u ct) x (cs_modulus (cs_pub csk)) in
    let* e := at_index (ct_es ict) j in
    bn_mod_mul ux e (cs_modulus (cs_pub csk))) (seq 0 size).

(** Entropy of one response. *)
Record rsp_entropy := { s_open : Z; s_betas : nat -> Z; s_xs : nat -> Z; s_dopen : Z }.

(** 1112-1137: decryption of the request; erasing from begin() + num_messages is undefined when there are fewer values. *)
Definition decrypt_request (csk : cs_private) (rq : bb_request) : outcome (list cs_ciphertext * list Z) :=
  let* dec := mapM (fun c => let* ct := cs_parse_ct cs c in let* bt := cs_decrypt csk ct in Ok (ct, bt)) (rq_cts rq) in
  let all := concat (map snd dec) in
  if (length all <? rq_num rq)%nat then UB else Ok (map fst dec, firstn (rq_num rq) all).
(** 1139-1146: base_g^(1/beta). *)
Definition signature_values (betas : list Z) : outcome (list (pt C)) :=
  mapM (fun x => let* inv := bn_mod_inverse x q in Ok (point_mul C (bb_base b) inv)) betas.

(** 1092-1291 GenerateResponseAndProof; its argument private_key is not used. *)
Definition bb_respond (rq : bb_request) (pk : bb_public) (cm cr : Z) (csk : cs_private) (e : rsp_entropy) : outcome (list bytes * rsp_proof) :=
  if (num_gs <? rq_num rq)%nat then Err InvalidArgument
  else
    let* (cts, betas) := decrypt_request csk rq in
    let* vals := signature_values betas in
    let* rsp := point_vector_to_proto C vals in
    let* (cb, ob) := ped_commit ped betas (s_open e) in
    let* cbb := to_bytes cb in
    let* bb_ := cube_bound par 0 in
    let* dbetas := draws bb_ (s_betas e) (rq_num rq) in
    let* bx := bn_lshift (cs_n cs) t in
    let* dxs := draws bx (s_xs e) vlen in
    let* dopen := generate_rand_less_than bx (s_dopen e) in
    let* dcb := ped_commit_with_rand ped dbetas dopen in
    let* dys := mapM (fun i => let* x := at_index dxs i in bn_mod_exp (cs_g (cs_pub csk)) x (cs_modulus (cs_pub csk))) (seq 0 vlen) in
    let* dgs := mapM (fun i => let* v := at_index vals i in let* d := at_index dbetas i in Ok (point_mul C v d)) (seq 0 (rq_num rq)) in
    let* dysb := bignum_vector_to_proto dys in
    let* dcbb := to_bytes dcb in
    let* dgsb := point_vector_to_proto C dgs in
    let* des := mapM (fun i => let* l := dummy_es csk (rq_num rq) dbetas dxs cts i in bignum_vector_to_proto l) (seq 0 (length cts)) in
    let* c := rsp_challenge pk cm cr rq rsp cb {| n1_ys := dysb; n1_betas := dcbb; n1_gs := dgsb; n1_es := des |} in
    let* chb := to_bytes c in
    let* mx := mapM (fun i => let* d := at_index dxs i in let* x := at_index (cs_xs csk) i in Ok (d + x * c)) (seq 0 vlen) in
    let* mbb := bignum_vector_to_proto (map2 (fun d x => d + x * c) dbetas betas) in
    let* mxb := bignum_vector_to_proto mx in
    let* mob := to_bytes (dopen + ob * c) in
    Ok (rsp, {| sp_betas := cbb; sp_challenge := chb; sp_xs := mxb; sp_mbetas := mbb; sp_open := mob |}).

(** 1391-1432: the dummy es of one ciphertext recovered from the masked values. *)
Definition recover_es (num : nat) (mbetas mxs : list Z) (cts : list cs_ciphertext) (c : Z) (i : nat) : outcome (list Z) :=
  let start := (i * vlen)%nat in
  let size := batch_size num i in
  let* batch := slice mbetas start (start + size) in
  let* ict := cs_encrypt_with_rand two_k_ary_flag cs batch 0 in
  let* ct := at_index cts i in
  mapM (fun j =>
    let* e := at_index (ct_es ict) j in
    let* x := at_index mxs j in
    let* ux := bn_mod_exp (ct_u ct) x (cs_modulus cs) in
    let* me := bn_mod_mul e ux (cs_modulus cs) in
    let* e0 := at_index (ct_es ct) j in
    let* ec := bn_mod_exp e0 c (cs_modulus cs) in
    let* inv := bn_mod_inverse ec (cs_modulus cs) in
    bn_mod_mul me inv (cs_modulus cs)) (seq 0 size).
(** 1445-1463: the dummy ys. *)
Definition recover_ys (mxs : list Z) (c : Z) : outcome (list Z) :=
  mapM (fun i =>
    let* x := at_index mxs i in
    let* gx := bn_mod_exp (cs_g cs) x (cs_modulus cs) in
    let* y := at_index (cs_ys cs) i in
    let* yc := bn_mod_exp y c (cs_modulus cs) in
    let* inv := bn_mod_inverse yc (cs_modulus cs) in
    bn_mod_mul gx inv (cs_modulus cs)) (seq 0 vlen).

(** 1293-1481 VerifyResponse. *)
Definition bb_verify_response (pk : bb_public) (rsp : list bytes) (pf : rsp_proof) (rq : bb_request) (cm cr : Z) : outcome unit :=
  if negb (length rsp =? rq_num rq)%nat then Err InvalidArgument
  else if negb (length (sp_xs pf) =? vlen)%nat then Err InvalidArgument
  else if negb (length (sp_mbetas pf) =? rq_num rq)%nat then Err InvalidArgument
  else
    let* cts := mapM (cs_parse_ct cs) (rq_cts rq) in
    let* vals := parse_point_vector C rsp in
    let cb := of_bytes (sp_betas pf) in
    let c := of_bytes (sp_challenge pf) in
    let mxs := parse_bignum_vector (sp_xs pf) in
    let mbetas := parse_bignum_vector (sp_mbetas pf) in
    let mopen := of_bytes (sp_open pf) in
    let* bound := cube_bound par 1 in
    if negb (forallb (fun x => x <? bound) mbetas) then Err InvalidArgument
    else
      let gci := pneg C (point_mul C (bb_base b) c) in
      let* dgs := mapM (fun i => let* v := at_index vals i in let* m := at_index mbetas i in Ok (padd C (point_mul C v m) gci)) (seq 0 (rq_num rq)) in
      let* dgsb := point_vector_to_proto C dgs in
      let* des := mapM (fun i => let* l := recover_es (rq_num rq) mbetas mxs cts c i in bignum_vector_to_proto l) (seq 0 (length cts)) in
      let* mcom := ped_commit_with_rand ped mbetas mopen in
      let* dcb := unmask mcom cb c in
      let* dcbb := to_bytes dcb in
      let* dys := recover_ys mxs c in
      let* dysb := bignum_vector_to_proto dys in
      let* c' := rsp_challenge pk cm cr rq rsp cb {| n1_ys := dysb; n1_betas := dcbb; n1_gs := dgsb; n1_es := des |} in
      if negb (c' =? c) then Err InvalidArgument else Ok tt.

(** 1483-1504 ExtractResults. *)
Definition bb_extract (rsp : list bytes) (state : list bytes) : outcome (list (pt C)) :=
  let* vals := parse_point_vector C rsp in
  let as_ := parse_bignum_vector state in
  mapM (fun i => let* v := at_index vals i in let* a := at_index as_ i in Ok (point_mul C v a)) (seq 0 (length vals)).
End Object.
End BB.
