(** What can be sent for an oblivious-signature request or response without knowing the secrets. *)
From Verif Require Import Base M_BigNum M_Num M_EC M_Proto M_CS M_Pedersen M_VRF M_BB S_Hide.

(** ** Response *)
(** The draws of a response proof for m values: one per value, one per slot and one for the opening. *)
Definition response_bounds (C : ec) (b : bb C) (m : nat) : list Z :=
  let p := bb_par C b in
  let q := ec_order C in
  let mask := 2 ^ (bp_chal p + bp_sec p) in
  repeat (2 ^ (2 * bp_chal p + 2 * bp_sec p) * q * q * q) m ++ repeat (cs_n (bb_cs C b) * mask) (cs_len (bb_cs C b)) ++ [cs_n (bb_cs C b) * mask].
(** The values a requester with the masks kept in [state] must have been sent if removing the masks gave Ps: each P divided by its mask. *)
Definition sent_points (C : ec) (state : list bytes) (Ps : list (pt C)) : list (pt C) :=
  map (fun aP => pmul C (of_bytes (fst aP) ^ (ec_order C - 2)) (snd aP)) (combine state Ps).
(** Random source that first draws the opening o of the commitment and then ds. *)
Definition response_entropy (C : ec) (b : bb C) (m : nat) (o : Z) (ds : list Z) : rsp_entropy :=
  {| s_open := o; s_betas := fun i => nth i ds 0; s_xs := fun i => nth (m + i) ds 0; s_dopen := nth (m + cs_len (bb_cs C b)) ds 0 |}.
(** For the signature values [vals] (encoded as rsp), the commitment cbb and the challenge c: draw the masked values. The points z v - c g only decide whether
    the response can be sent at all. *)
Definition simulated_response (C : ec) (b : bb C) (vals : list (pt C)) (rsp : list bytes) (cbb : bytes) (m : nat) (c : Z) (ds : list Z) : outcome (list bytes * rsp_proof) :=
  let len := cs_len (bb_cs C b) in
  let mbetas := part 0 m ds in
  let* _ := point_vector_to_proto C (map (fun j => padd C (pmul C (nth j mbetas 0) (nth j vals (pinf C))) (pneg C (pmul C c (bb_base C b)))) (seq 0 m)) in
  let* chb := to_bytes c in
  let* mbb := bignum_vector_to_proto mbetas in
  let* mxb := bignum_vector_to_proto (part m len ds) in
  let* mob := to_bytes (nth (m + len) ds 0) in
  Ok (rsp, {| sp_betas := cbb; sp_challenge := chb; sp_xs := mxb; sp_mbetas := mbb; sp_open := mob |}).

(** ** Request *)
(** The draws of a request proof for m messages in k ciphertexts. *)
Definition request_bounds (C : ec) (b : bb C) (m k : nat) : list Z :=
  let p := bb_par C b in
  let q := ec_order C in
  let mask := 2 ^ (bp_chal p + bp_sec p) in
  let open := pp_n (pd_par (bb_ped C b)) * mask in
  repeat (q * mask) m ++ repeat (q * mask) m ++ repeat (q * mask) m ++ repeat open m ++ repeat (q * q * mask * mask) m ++ repeat (q * mask * q) m ++ repeat (q * mask * q) m ++
  [open; open; open; open * q * Z.of_nat (m + 1); open; open * q * Z.of_nat (m + 1); open] ++ repeat (cs_n (bb_cs C b) * mask) k.
(** The same draws as a collection of values. *)
Definition arrange (m k : nat) (ds : list Z) : req_values :=
  let at_ i := nth (7 * m + i) ds 0 in
  {| v_messages := part 0 m ds; v_messages_open := at_ 0%nat; v_rs := part m m ds; v_rs_open := at_ 1%nat; v_as := part (2 * m) m ds; v_as_open := part (3 * m) m ds;
     v_bs := part (4 * m) m ds; v_bs_open := at_ 2%nat; v_alphas := part (5 * m) m ds; v_alphas_1 := at_ 3%nat; v_alphas_2 := at_ 4%nat;
     v_gammas := part (6 * m) m ds; v_gammas_1 := at_ 5%nat; v_gammas_2 := at_ 6%nat; v_enc := part (7 * m + 7) k ds |}.
(** Random source that uses e for the request itself and ds for the proof. *)
Definition with_dummies (e : req_entropy) (m : nat) (ds : list Z) : req_entropy :=
  let from s := fun i => nth (s + i) ds 0 in
  let at_ i := nth (7 * m + i) ds 0 in
  {| e_a := e_a e; e_b := e_b e; e_enc := e_enc e; e_ao := e_ao e; e_bo := e_bo e; e_zal := e_zal e; e_zga := e_zga e;
     d_m := from 0%nat; d_r := from m; d_a := from (2 * m)%nat; d_ao := from (3 * m)%nat; d_b := from (4 * m)%nat; d_al := from (5 * m)%nat; d_ga := from (6 * m)%nat;
     d_mo := at_ 0%nat; d_ro := at_ 1%nat; d_bo := at_ 2%nat; d_al1 := at_ 3%nat; d_al2 := at_ 4%nat; d_ga1 := at_ 5%nat; d_ga2 := at_ 6%nat; d_enc := from (7 * m + 7)%nat |}.
(** Some encryption randomness of the proof is neither 0 nor a unit: the request cannot be sent and new randomness is needed. *)
Definition unusable_draw (n : Z) (m k : nat) (ds : list Z) : bool := negb (forallb (fun x => (x =? 0) || (Z.gcd x n =? 1)) (part (7 * m + 7) k ds)).
(** For a request with its commitments and the challenge c: draw the masked values. *)
Definition simulated_request (rq : bb_request) (cas : list bytes) (cbs cal cga : bytes) (state : list bytes) (m k : nat) (c : Z) (ds : list Z) :
    outcome (bb_request * req_proof * list bytes) :=
  let* chb := to_bytes c in
  let* m2 := values_to_proto (arrange m k ds) in
  Ok (rq, {| rp_as := cas; rp_bs := cbs; rp_alphas := cal; rp_gammas := cga; rp_challenge := chb; rp_m2 := m2 |}, state).
